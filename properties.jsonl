{"id": "C01", "title": "Surface slope is the derivative of the surface contribution", "statement": "In monostatic geometry, with constant tau, omega, NormBRDF and bsf, the value returned by surface_slope(dB=False, sig0=False) at incidence angle t is the exact derivative with respect to t of the value returned by surface() at t, provided the BRDF derivative supplied by the surface object is the derivative of its BRDF.", "quantifier": "all incidence angles with cos t > 0, all I0, tau, NormBRDF, bsf, every differentiable BRDF (as a function of the incidence angle)", "why_tests_cant": "The claim is an identity/inequality over a continuum of real parameters; a test compares a finite difference or a table at a few points within a tolerance.", "anchors": ["rt1/rt1.py: RT1.surface", "rt1/rt1.py: RT1.surface_slope"]}
{"id": "C02", "title": "Volume slope is the derivative of the volume contribution", "statement": "In monostatic geometry with constant parameters the value of volume_slope(dB=False, sig0=False) at t is the exact derivative of volume() with respect to t, provided the phase-function derivative supplied by the volume object is the derivative of its phase function.", "quantifier": "all incidence angles with cos t > 0, all I0, tau, omega, bsf, every differentiable phase function", "why_tests_cant": "The claim is an identity/inequality over a continuum of real parameters; a test compares a finite difference or a table at a few points within a tolerance.", "anchors": ["rt1/rt1.py: RT1.volume", "rt1/rt1.py: RT1.volume_slope"]}
{"id": "C03", "title": "Slopes in sigma0 and dB units are derivatives of the converted quantity", "statement": "For each of surface, volume and total contribution, and each of the four combinations of the flags sig0 and dB, the returned slope is the exact derivative with respect to the incidence angle of that contribution converted to those units (sigma0 = 4 pi cos t I, dB = 10 log10).", "quantifier": "all four unit combinations, all angles with cos t > 0, all parameters; for dB all parameters for which the contribution is positive", "why_tests_cant": "The claim is an identity/inequality over a continuum of real parameters; a test compares a finite difference or a table at a few points within a tolerance.", "anchors": ["rt1/rt1.py: RT1.surface_slope", "rt1/rt1.py: RT1.volume_slope", "rt1/rt1.py: RT1.tot_slope", "rt1/general_functions.py: dBsig0convert"]}
{"id": "C04", "title": "Curvatures are second derivatives of the contributions", "statement": "In monostatic geometry surface_curv and volume_curv (dB=False, sig0=False) return the exact second derivative with respect to the incidence angle of surface() and volume().", "quantifier": "all angles with cos t > 0, all I0, tau, omega, NormBRDF, bsf, every twice differentiable BRDF / phase function", "why_tests_cant": "The claim is an identity/inequality over a continuum of real parameters; a test compares a finite difference or a table at a few points within a tolerance.", "anchors": ["rt1/rt1.py: RT1.surface_curv", "rt1/rt1.py: RT1.volume_curv"]}
{"id": "C05", "title": "Curvatures in sigma0 and dB units are second derivatives of the converted quantity", "statement": "For surface, volume and total and each of the four flag combinations the returned curvature is the exact second derivative of the contribution converted to those units.", "quantifier": "all four unit combinations, all angles with cos t > 0, all parameters (positive contribution for dB)", "why_tests_cant": "The claim is an identity/inequality over a continuum of real parameters; a test compares a finite difference or a table at a few points within a tolerance.", "anchors": ["rt1/rt1.py: RT1.surface_curv", "rt1/rt1.py: RT1.volume_curv", "rt1/rt1.py: RT1.tot_curv"]}
{"id": "C06", "title": "Jacobian entries for omega, NormBRDF and bsf are the partial derivatives of the model", "statement": "The jacobian entries for omega, NormBRDF and bsf (linear intensity units) are the exact partial derivatives of surface()+volume() with respect to that parameter.", "quantifier": "all (bistatic) geometries with nonzero cosines, all parameter values", "why_tests_cant": "The claim is an identity/inequality over a continuum of real parameters; a test compares a finite difference or a table at a few points within a tolerance.", "anchors": ["rt1/rt1.py: RT1.jacobian", "rt1/rt1.py: RT1._dvolume_domega", "rt1/rt1.py: RT1._dsurface_dR", "rt1/rt1.py: RT1._dvolume_dbsf", "rt1/rt1.py: RT1._dsurface_dbsf"]}
{"id": "C07", "title": "Jacobian entry for tau is the partial derivative of the model", "statement": "The jacobian entry for tau (linear intensity units) is the partial derivative of surface()+volume() with respect to tau.", "quantifier": "all geometries with nonzero cosines, all parameter values", "why_tests_cant": "The claim is an identity/inequality over a continuum of real parameters; a test compares a finite difference or a table at a few points within a tolerance.", "anchors": ["rt1/rt1.py: RT1.jacobian", "rt1/rt1.py: RT1._dvolume_dtau", "rt1/rt1.py: RT1._dsurface_dtau"]}
{"id": "C08", "title": "Jacobian entries for free phase-function and BRDF parameters", "statement": "For a parameter x that occurs only in the phase function and/or in the BRDF, the jacobian entry for x (linear intensity units) is the exact partial derivative of surface()+volume() with respect to x.", "quantifier": "all geometries, all parameter values, every phase function / BRDF differentiable in x", "why_tests_cant": "The claim is an identity/inequality over a continuum of real parameters; a test compares a finite difference or a table at a few points within a tolerance.", "anchors": ["rt1/rt1.py: RT1.jacobian", "rt1/rt1.py: RT1._d_surface_ddummy", "rt1/rt1.py: RT1._d_volume_ddummy"]}
{"id": "C09", "title": "Jacobian follows the chain rule in sigma0 and dB units", "statement": "With sig0=True (linear) or dB=True the jacobian entry of a parameter is the exact derivative of the converted total contribution, for every parameter whose linear-intensity entry is the exact derivative; a parameter name that is none of tau, omega, bsf, NormBRDF or a declared free parameter raises an AssertionError.", "quantifier": "all four unit combinations, all geometries and parameters (positive total for dB), all parameter names", "why_tests_cant": "The claim is an identity/inequality over a continuum of real parameters; a test compares a finite difference or a table at a few points within a tolerance.", "anchors": ["rt1/rt1.py: RT1.jacobian"]}
{"id": "C10", "title": "Total backscatter decomposes and degenerates correctly", "statement": "calc() returns (surface+volume[+interaction], surface, volume, interaction); with tau = 0 volume and interaction contributions are exactly 0 and the total is the bare BRDF contribution; with bsf = 1 the result does not depend on tau or omega and equals the bare-soil contribution; with omega = 0 volume and interaction vanish.", "quantifier": "all parameters, all geometries, with and without interaction term", "why_tests_cant": "The claim is an identity/inequality over a continuum of real parameters; a test compares a finite difference or a table at a few points within a tolerance.", "anchors": ["rt1/rt1.py: RT1.calc", "rt1/rt1.py: RT1.surface", "rt1/rt1.py: RT1.volume", "rt1/rt1.py: RT1.interaction"]}
{"id": "C11", "title": "Contributions are bounded and monotone in optical depth, linear in omega and bsf", "statement": "For nonnegative phase function and BRDF: the surface contribution is non-increasing in tau and lies between 0 and the bare-soil value, the volume contribution is non-decreasing in tau and lies between 0 and its opaque limit (1-bsf) I0 omega mu0/(mu0+muex) p; both are affine in bsf and volume is linear in omega.", "quantifier": "all tau >= 0, cosines in (0,1], bsf in [0,1], omega >= 0", "why_tests_cant": "The claim is an identity/inequality over a continuum of real parameters; a test compares a finite difference or a table at a few points within a tolerance.", "anchors": ["rt1/rt1.py: RT1.surface", "rt1/rt1.py: RT1.volume"]}
{"id": "C12", "title": "Monostatic geometry is maintained by every history of assignments", "statement": "For an RT1 object created with geometry 'mono', after any sequence of assignments to t_0, t_ex, p_0, p_ex, the reported exit angles satisfy t_ex = t_0 and p_ex = p_0 + pi, and assignments to t_ex/p_ex have no effect.", "quantifier": "all finite sequences of geometry assignments", "why_tests_cant": "The claim ranges over every finite history of calls; tests run a handful of histories.", "anchors": ["rt1/rt1.py: RT1.t_0 / t_ex / p_0 / p_ex setters"]}
{"id": "C13", "title": "Derived quantities follow the current geometry", "statement": "After any sequence of assignments to the geometry, the angle cosines used by surface()/volume() are those of the current angles, and the powers of the cosines used by interaction() are also those of the current angles.", "quantifier": "all finite sequences of geometry assignments and evaluations", "why_tests_cant": "The claim ranges over every finite history of calls; tests run a handful of histories.", "anchors": ["rt1/rt1.py: RT1._mu_0_x", "rt1/rt1.py: RT1._mu_ex_x", "rt1/rt1.py: RT1._clear_cache", "rt1/rt1.py: RT1._mu_0"]}
{"id": "C14", "title": "Interaction term evaluates the first-order scattering integral", "statement": "The factor computed by the interaction term for an expansion f_0..f_N equals the integral over the scattering zenith cosine m in (0,1] of (sum_n f_n m^n) * m/(mu-m) * (exp(-tau/mu) - exp(-tau/m)), given that the exponential integrals are the mathematical ones.", "quantifier": "all tau > 0, all mu in (0,1), all coefficient lists", "why_tests_cant": "The claim is an identity/inequality over a continuum of real parameters; a test compares a finite difference or a table at a few points within a tolerance.", "anchors": ["rt1/rt1.py: RT1._calc_Fint_1", "rt1/rt1.py: RT1._calc_Fint_2", "rt1/rt1.py: RT1._S2_mu"]}
{"id": "C15", "title": "Generalised scattering angle: dot product, bounds and symmetry", "statement": "The generalised scattering-angle cosine with weights (a0,a1,a2) is the a-weighted dot product of the two unit direction vectors; it lies in [-1,1] whenever every |a_i| <= 1; it is unchanged by exchanging the two directions and, for a1=a2, by a common azimuth rotation; for weights (-1,1,1) in backscatter geometry it is exactly -1 and for (1,1,1) exactly cos(2 t).", "quantifier": "all angles, all weights", "why_tests_cant": "The claim is an identity/inequality over a continuum of real parameters; a test compares a finite difference or a table at a few points within a tolerance.", "anchors": ["rt1/scatter.py: Scatter.scat_angle", "rt1/scatter.py: Scatter._scat_angle_numeric"]}
{"id": "C16", "title": "Finite Legendre expansions of Isotropic and Rayleigh scattering are exact", "statement": "For Isotropic surfaces and Rayleigh volumes the Legendre sum built from the advertised coefficients equals the advertised scattering function at every scattering angle.", "quantifier": "all real scattering-angle cosines, every ncoefs at least the number of nonzero coefficients", "why_tests_cant": "The claim is an identity/inequality over a continuum of real parameters; a test compares a finite difference or a table at a few points within a tolerance.", "anchors": ["rt1/volume.py: Rayleigh", "rt1/surface.py: Isotropic", "rt1/scatter.py: Scatter._eval_legpoly"]}
{"id": "C17", "title": "Henyey-Greenstein Legendre coefficients are exact", "statement": "The Legendre series built from the Henyey-Greenstein coefficients converges to the Henyey-Greenstein function, so increasing ncoefs converges to the true phase function / BRDF.", "quantifier": "all asymmetry parameters |t| < 1, all scattering-angle cosines in [-1,1]", "why_tests_cant": "The claim is an identity/inequality over a continuum of real parameters; a test compares a finite difference or a table at a few points within a tolerance.", "anchors": ["rt1/volume.py: HenyeyGreenstein.legcoefs", "rt1/surface.py: HenyeyGreenstein.legcoefs"]}
{"id": "C18", "title": "HG-Rayleigh Legendre coefficients are exact", "statement": "The Legendre series built from the HGRayleigh coefficients converges to the HGRayleigh phase function.", "quantifier": "all |t| < 1, all scattering-angle cosines in [-1,1]", "why_tests_cant": "The claim is an identity/inequality over a continuum of real parameters; a test compares a finite difference or a table at a few points within a tolerance.", "anchors": ["rt1/volume.py: HGRayleigh"]}
{"id": "C19", "title": "Phase functions are normalised", "statement": "The integral over the full sphere of the Isotropic-free volume phase functions Rayleigh, HenyeyGreenstein and HGRayleigh (as functions of the scattering-angle cosine) equals 1.", "quantifier": "all asymmetry parameters |t| < 1", "why_tests_cant": "The claim is an identity/inequality over a continuum of real parameters; a test compares a finite difference or a table at a few points within a tolerance.", "anchors": ["rt1/volume.py: Rayleigh", "rt1/volume.py: HenyeyGreenstein", "rt1/volume.py: HGRayleigh"]}
{"id": "C20", "title": "Nadir-normalised HG BRDF has unit hemispherical reflectance at nadir", "statement": "For HG_nadirnorm the hemispherical reflectance integral of the BRDF at nadir incidence equals NormBRDF-scale 1.", "quantifier": "all asymmetry parameters 0 < |t| < 1 and the admissible weights a0", "why_tests_cant": "The claim is an identity/inequality over a continuum of real parameters; a test compares a finite difference or a table at a few points within a tolerance.", "anchors": ["rt1/surface.py: HG_nadirnorm"]}
{"id": "C21", "title": "Azimuth averages of cosine powers", "statement": "The factor substituted for cos(phi)^i in the azimuth integration equals (1/2pi) times the integral of cos^i over a full period, for every power i.", "quantifier": "all natural numbers i", "why_tests_cant": "Needs induction over the power; a test checks the first few.", "anchors": ["rt1/rt1.py: RT1._cosintegral"]}
{"id": "C22", "title": "Azimuth integration of trigonometric polynomials", "statement": "Replacing powers of sin(phi_s), cos(phi_s) by the code's substitution rules yields (1/2pi) times the integral over phi_s in [0,2pi] of the expanded product.", "quantifier": "all polynomials in sin(phi_s) and cos(phi_s) whose degree does not exceed the number handled (V.ncoefs + SRF.ncoefs)", "why_tests_cant": "Ranges over all polynomials.", "anchors": ["rt1/rt1.py: RT1._integrate_0_2pi_phis", "rt1/rt1.py: RT1._calc_interaction_expansion"]}
{"id": "C23", "title": "Extraction of the interaction coefficients", "statement": "The list of coefficients extracted from the expanded interaction expression are the coefficients of 1, cos, cos^2, ..., i.e. re-summing them reproduces the expression for every zenith angle, whenever the degree is below V.ncoefs + SRF.ncoefs - 1.", "quantifier": "all polynomials in cos(theta_s) in that degree range", "why_tests_cant": "Ranges over all polynomials.", "anchors": ["rt1/rt1.py: RT1._extract_coefficients"]}
{"id": "C24", "title": "Linear combinations of scattering functions", "statement": "The function of a linear combination is the weighted sum of the components' functions; its Legendre expansion is the weighted sum of the components' expansions, each at its own weight vector a and truncated at the largest ncoefs among the components sharing that a; both are independent of the order of the components.", "quantifier": "all lists of (fraction, component) choices", "why_tests_cant": "The claim ranges over every list (any length, any duplicates, any order); tests fix a few short ones.", "anchors": ["rt1/volume.py: LinCombV", "rt1/surface.py: LinCombSRF"]}
{"id": "C25", "title": "Unit conversion composes and round-trips", "statement": "dBsig0convert from unit system A to B followed by B to C gives the same value as A to C directly; A to A is the identity; A to B to A is the identity.", "quantifier": "all 4 x 4 x 4 unit systems, all values representable in the source system (positive where a logarithm is taken), all incidence angles with cos > 0", "why_tests_cant": "The claim is an identity/inequality over a continuum of real parameters; a test compares a finite difference or a table at a few points within a tolerance.", "anchors": ["rt1/general_functions.py: dBsig0convert"]}
{"id": "C26", "title": "Rectangularisation keeps data and mask exactly identifies padding", "statement": "rectangularize pads every row with copies of its last element to a common length; the mask is False exactly on original entries, so dropping the masked entries row by row returns the input exactly; an empty row raises an exception.", "quantifier": "all lists of non-empty rows (and the failure case with an empty row)", "why_tests_cant": "The claim ranges over every list (any length, any duplicates, any order); tests fix a few short ones.", "anchors": ["rt1/general_functions.py: rectangularize"]}
{"id": "C27", "title": "Mean datetime lies within the data range and is the mean up to rounding", "statement": "meandatetime returns a timestamp between the earliest and latest input, within len(x) nanoseconds of the exact arithmetic mean, equal to it whenever all differences are divisible; a single timestamp is returned unchanged; it is translation equivariant.", "quantifier": "all non-empty lists of timestamps (integer nanoseconds)", "why_tests_cant": "The claim ranges over every list (any length, any duplicates, any order); tests fix a few short ones.", "anchors": ["rt1/general_functions.py: meandatetime"]}
{"id": "C28", "title": "Sliding windows", "statement": "pairwise(s, k) returns exactly the len(s)-k+1 windows (s_i..s_{i+k-1}) in order (none if len(s) < k).", "quantifier": "all lists, all k >= 1", "why_tests_cant": "The claim ranges over every list (any length, any duplicates, any order); tests fix a few short ones.", "anchors": ["rt1/general_functions.py: pairwise"]}
{"id": "C29", "title": "Splitting into prescribed sizes", "statement": "split_into returns consecutive slices: concatenated they are a prefix of the input (all of it if the sizes sum to at least the length or a None occurs), slice i has the requested size while data lasts, and None takes the rest and stops.", "quantifier": "all lists and all size lists", "why_tests_cant": "The claim ranges over every list (any length, any duplicates, any order); tests fix a few short ones.", "anchors": ["rt1/general_functions.py: split_into"]}
{"id": "C30", "title": "Scaling maps the data range onto the output range", "statement": "scale maps min to out_range[0] and max to out_range[1], is affine and increasing (for increasing out_range), maps every element into the range, and scaling back recovers the data.", "quantifier": "all non-empty arrays that are not constant, all output ranges", "why_tests_cant": "The claim is an identity/inequality over a continuum of real parameters; a test compares a finite difference or a table at a few points within a tolerance.", "anchors": ["rt1/general_functions.py: scale"]}
{"id": "C31", "title": "Timedelta decomposition", "statement": "dt_to_hms yields hours in 0..23, minutes and seconds in 0..59 with days*86400+3600h+60m+s equal to the timedelta's whole seconds, and this decomposition is unique.", "quantifier": "all normalised timedeltas, including negative ones", "why_tests_cant": "Ranges over all integers.", "anchors": ["rt1/general_functions.py: dt_to_hms"]}
{"id": "C32", "title": "Unsorted grouping is a lossless stable partition", "statement": "groupby_unsorted returns each key exactly once, in order of first occurrence (or sorted), and under each key exactly the (transformed) elements with that key in input order; nothing is lost or duplicated.", "quantifier": "all lists, all key and get functions", "why_tests_cant": "The claim ranges over every list (any length, any duplicates, any order); tests fix a few short ones.", "anchors": ["rt1/general_functions.py: groupby_unsorted"]}
{"id": "C33", "title": "Fresh identifier numbers", "statement": "find_missing yields strictly increasing numbers none of which is in the given list, fills every gap below the maximum first, never runs out, and for N yields exactly N numbers; hence assigning them keeps all numbers distinct.", "quantifier": "all lists of non-negative integers, every prefix length", "why_tests_cant": "The claim ranges over every list (any length, any duplicates, any order); tests fix a few short ones.", "anchors": ["rt1/general_functions.py: find_missing"]}
{"id": "C34", "title": "Chunking loses nothing", "statement": "chunkit yields ceil(len/size) chunks whose concatenation is the input, all of exactly the chunk size except possibly the last, none empty; size 0 raises; a negative size silently yields no chunk at all.", "quantifier": "all arrays, all chunk sizes", "why_tests_cant": "The claim ranges over every list (any length, any duplicates, any order); tests fix a few short ones.", "anchors": ["rt1/general_functions.py: chunkit"]}
{"id": "C35", "title": "defdict list representation round-trips", "statement": "Building a defdict from the list-dictionary of another defdict reproduces the same variables in the same order with the same six properties.", "quantifier": "all defdicts reachable by any history of add/remove/modify", "why_tests_cant": "The claim ranges over every finite history of calls; tests run a handful of histories.", "anchors": ["rt1/_containers.py: _RT1_defdict.from_dict / to_dict", "rt1/_containers.py: _RT1_variable._from_list / _to_list"]}
{"id": "C36", "title": "defdict dict representation round-trips", "statement": "to_dict(props='dict') returns a dictionary from which from_dict rebuilds an equal defdict.", "quantifier": "all defdicts", "why_tests_cant": "The claim ranges over every finite history of calls; tests run a handful of histories.", "anchors": ["rt1/_containers.py: _RT1_variable._to_dict", "rt1/_containers.py: _RT1_variable._from_dict"]}
{"id": "C37", "title": "defdict variable listing is consistent", "statement": "After any history of add_variable/remove_variable/attribute assignment the listing contains each variable once, in order of (re-)insertion, and every listed variable has a definition and vice versa.", "quantifier": "all finite histories of operations", "why_tests_cant": "The claim ranges over every finite history of calls; tests run a handful of histories.", "anchors": ["rt1/_containers.py: _RT1_defdict.add_variable / remove_variable / __setattr__"]}
{"id": "C38", "title": "Assigning a property list to a new defdict attribute equals from_dict", "statement": "Setting defdict.x = [fitQ, val, freq, ([min],[max]), interpQ] defines the same variable as from_dict({x: that list}).", "quantifier": "all property lists", "why_tests_cant": "The claim ranges over every finite history of calls; tests run a handful of histories.", "anchors": ["rt1/_containers.py: _RT1_defdict.__setattr__"]}
{"id": "C39", "title": "Config overrides replace exactly the overridden keys", "statement": "get_config(name) equals get_config() except that keys present in a '#config name <section>' section take the value parsed from there; other keys, other sections and other configs are unaffected.", "quantifier": "all ini files (parsed to ordered section/key/string maps), all config names", "why_tests_cant": "Ranges over all configuration files.", "anchors": ["rt1/rtparse.py: RT1_configparser.get_config"]}
{"id": "C40", "title": "defdict section parsing", "statement": "A defdict entry string '[fitQ, val, freq, min, max(, interpQ)]' is parsed to the documented list, blanks are irrelevant, any entry not in brackets or whose first field is neither True nor False raises an AssertionError.", "quantifier": "all entry strings", "why_tests_cant": "Ranges over all strings.", "anchors": ["rt1/rtparse.py: RT1_configparser._parse_defdict"]}
{"id": "C41", "title": "LinComb sections are grouped per letter", "statement": "For a LinComb section every key 'X__name' ends up in the choice of letter X (fraction from X__frac, default 1), choices appear in order of first appearance, all other keys are kept unchanged and no key is lost.", "quantifier": "all sections", "why_tests_cant": "Ranges over all sections.", "anchors": ["rt1/rtparse.py: RT1_configparser._parse_V_SRF"]}
{"id": "C42", "title": "Config names are found", "statement": "config_names is exactly the set of names N for which a '#config N' or '#config N <existing section>' section exists, and sections of any other shape starting with '#config ' raise an AssertionError.", "quantifier": "all lists of section names", "why_tests_cant": "Ranges over all section lists.", "anchors": ["rt1/rtparse.py: RT1_configparser.config_names"]}
{"id": "C43", "title": "'None' is accepted for every process-spec", "statement": "A process-spec whose value is the string None is returned as None.", "quantifier": "all typed and untyped keys", "why_tests_cant": "Ranges over all keys.", "anchors": ["rt1/rtparse.py: RT1_configparser.get_process_specs"]}
{"id": "C44", "title": "RMSD decomposes into bias and unbiased RMSD", "statement": "rmsd^2 = bias^2 + ub_rmsd^2.", "quantifier": "all pairs of equally long non-empty series", "why_tests_cant": "The claim is an identity/inequality over a continuum of real parameters; a test compares a finite difference or a table at a few points within a tolerance.", "anchors": ["rt1/rtmetrics.py: RTmetrics.rmsd / ub_rmsd / bias"]}
{"id": "C45", "title": "Metric inequalities and symmetries", "statement": "|bias| <= mae <= rmsd, ub_rmsd <= rmsd, rmsd/mae/ub_rmsd are symmetric and zero on equal series, bias is antisymmetric, rmsd satisfies the triangle inequality, ub_rmsd is invariant under adding constants.", "quantifier": "all series of equal length", "why_tests_cant": "The claim is an identity/inequality over a continuum of real parameters; a test compares a finite difference or a table at a few points within a tolerance.", "anchors": ["rt1/rtmetrics.py: RTmetrics"]}
{"id": "C46", "title": "Pearson correlation", "statement": "The correlation coefficient lies in [-1,1], is symmetric, and invariant under positive affine maps of either series (sign flips under negative ones); the product of both standard-deviation ratios is 1.", "quantifier": "all series with nonzero variance", "why_tests_cant": "The claim is an identity/inequality over a continuum of real parameters; a test compares a finite difference or a table at a few points within a tolerance.", "anchors": ["rt1/rtmetrics.py: RTmetrics.pearson", "rt1/rtmetrics.py: RTmetrics.std_ratio"]}
{"id": "C47", "title": "Every metric variable resolves to its own source", "statement": "Each (source, name) pair of the available variables is reachable under exactly one key, and that key resolves back to the same source and name.", "quantifier": "all lists of dataset / model / retrieval / auxiliary names", "why_tests_cant": "The claim ranges over every list (any length, any duplicates, any order); tests fix a few short ones.", "anchors": ["rt1/rtmetrics.py: _metric_keys._check_keys", "rt1/rtmetrics.py: _RTmetrics1.__init__"]}
{"id": "C48", "title": "Every processed result is stored exactly once", "statement": "For every interleaving of workers, combiners and writers in which no write fails, when the pool has shut down the store contains, for every key, exactly the rows of all results produced by the workers, each once.", "quantifier": "all schedules of any number of workers, combiners, writers; all chunk sizes >= 1; all result sets", "why_tests_cant": "Concurrency: all interleavings.", "anchors": ["rt1/_rtprocess_writer.py: RT1_processor._combiner_process", "rt1/_rtprocess_writer.py: RT1_processor._save_file_process", "rt1/_rtprocess_writer.py: RT1_processor.stop"]}
{"id": "C49", "title": "Progress counters never over-report", "statement": "At every point of every execution total count = number of results taken from the queue, mean count <= total count <= number of tasks, and after shutdown total = number of results put and total - mean = number of failed results.", "quantifier": "all schedules", "why_tests_cant": "Concurrency: all interleavings.", "anchors": ["rt1/_rtprocess_writer.py: RT1_processor._increase_cnt", "rt1/_rtprocess_writer.py: RT1_processor._worker_process"]}
{"id": "C50", "title": "Constant layers keep their name", "statement": "A result under key 'const__NAME' is stored under key NAME.", "quantifier": "all names", "why_tests_cant": "Ranges over all strings.", "anchors": ["rt1/_rtprocess_writer.py: RT1_processor._combiner_process"]}
{"id": "C51", "title": "A failing write does not hang the processing", "statement": "If writing a result raises an exception, all processes terminate.", "quantifier": "all schedules", "why_tests_cant": "Concurrency: all interleavings.", "anchors": ["rt1/_rtprocess_writer.py: RT1_processor._save_file_process", "rt1/_rtprocess_writer.py: RT1_processor._worker_process"]}
{"id": "C52", "title": "Resuming after a crash never skips unfinished work", "statement": "If the process is killed at any point while writing, then on restart every ID that is skipped has all of its layers in the store.", "quantifier": "all crash points", "why_tests_cant": "Ranges over all crash points.", "anchors": ["rt1/_rtprocess_writer.py: RT1_processor._save_file_process", "rt1/_rtprocess_writer.py: RT1_processor._check_IDs"]}
{"id": "C53", "title": "ID numbers are unique across any number of runs", "statement": "After any sequence of processing runs (new file or existing file) no two stored IDs share an ID number, and every requested ID not yet stored is processed.", "quantifier": "all sequences of runs with arbitrary argument lists", "why_tests_cant": "The claim ranges over every finite history of calls; tests run a handful of histories.", "anchors": ["rt1/_rtprocess_writer.py: RT1_processor._check_IDs", "rt1/processing_config.py: rt1_processing_config.mask_existing_HDF_IDs"]}
{"id": "C54", "title": "Exception policy", "statement": "The default exception handler re-raises exactly when no dump path is configured and the exception carries none of the three reserved tags; it returns a reloaded fit exactly when the file-already-exists tag takes precedence and loading succeeds.", "quantifier": "all exception argument tuples, all configurations", "why_tests_cant": "Ranges over all argument tuples.", "anchors": ["rt1/processing_config.py: rt1_processing_config.exceptfunc"]}
{"id": "C55", "title": "Group index of combined variabilities", "statement": "Two observations fall into the same combined group iff they agree in the group number of every fitted parameter.", "quantifier": "all tables of non-negative group numbers", "why_tests_cant": "The claim ranges over every list (any length, any duplicates, any order); tests fix a few short ones.", "anchors": ["rt1/rtfits.py: Fits._groupindex"]}
{"id": "C56", "title": "Integer temporal variability partitions the dates", "statement": "freq = N splits the sorted unique dates into consecutive groups, each date in exactly one group, group sizes between N and N + ceil(rest/groups), sizes differing by at most one.", "quantifier": "all numbers of dates and all N with 1 <= N <= number of dates (N larger than the number of dates raises)", "why_tests_cant": "The claim ranges over every list (any length, any duplicates, any order); tests fix a few short ones.", "anchors": ["rt1/rtfits.py: Fits.param_dyn_dict"]}
{"id": "C57", "title": "Manual variability is honoured", "statement": "Observations with different values in the '<name>_dyn' column are fitted with different parameter values and observations with equal values with the same one.", "quantifier": "all dyn columns", "why_tests_cant": "The claim ranges over every list (any length, any duplicates, any order); tests fix a few short ones.", "anchors": ["rt1/rtfits.py: Fits.param_dyn_dict", "rt1/rtfits.py: Fits._manual_dyn_df"]}
{"id": "C58", "title": "Fitted parameters are assigned to the right observations", "statement": "The parameter array handed to the model has, for every observation, the fit-result entry belonging to that observation's parameter group.", "quantifier": "all datasets and group assignments, all result vectors", "why_tests_cant": "The claim ranges over every list (any length, any duplicates, any order); tests fix a few short ones.", "anchors": ["rt1/rtfits.py: Fits._assignvals", "rt1/rtfits.py: Fits._param_assigns", "rt1/rtfits.py: Fits._idx_assigns"]}
{"id": "C59", "title": "Optimiser vector, start values and bounds are aligned", "statement": "The flat start vector, the lower and upper bounds have equal length and splitting the optimiser's vector assigns every parameter exactly its own segment (same length as its start values).", "quantifier": "all sets of fitted parameters with any number of groups", "why_tests_cant": "The claim ranges over every list (any length, any duplicates, any order); tests fix a few short ones.", "anchors": ["rt1/rtfits.py: Fits.performfit", "rt1/rtfits.py: Fits._startvaldict", "rt1/rtfits.py: Fits._boundsvaldict"]}
{"id": "C60", "title": "Jacobian columns are the parameter columns", "statement": "In the jacobian handed to the optimiser, the derivative of observation i with respect to group g of a parameter is placed in row i and column of group g.", "quantifier": "all group assignments", "why_tests_cant": "The claim ranges over every list (any length, any duplicates, any order); tests fix a few short ones.", "anchors": ["rt1/rtfits.py: Fits._calc_jac", "rt1/rtfits.py: Fits._jac_assign_rule"]}
{"id": "C61", "title": "Changing the model takes effect", "statement": "After assigning a new set_V_SRF (or dataset) to a fit object, model evaluations use it.", "quantifier": "all histories of assignments and evaluations", "why_tests_cant": "The claim ranges over every finite history of calls; tests run a handful of histories.", "anchors": ["rt1/rtfits.py: Fits.__setattr__", "rt1/rtfits.py: Fits.R", "rt1/rtfits.py: MultiFits.set_dataset"]}
{"id": "C62", "title": "Config names of a MultiFits are unique and ordered", "statement": "After any sequence of add_config calls the list of configuration names contains every added name once in insertion order and each name refers to the configuration added last under it.", "quantifier": "all sequences of add_config", "why_tests_cant": "The claim ranges over every finite history of calls; tests run a handful of histories.", "anchors": ["rt1/rtfits.py: MultiFits.add_config"]}
{"id": "C63", "title": "Results survive the HDF round trip", "statement": "The parameter results written for a fit and loaded again are the same vectors for every parameter.", "quantifier": "all result dictionaries of vectors of possibly different lengths", "why_tests_cant": "The claim ranges over every list (any length, any duplicates, any order); tests fix a few short ones.", "anchors": ["rt1/rtfits.py: Fits._get_res_dict_df", "rt1/rtresults.py: HDFaccessor._load_fit"]}
{"id": "C64", "title": "Paged reading returns every ID once", "statement": "Iterating over the stored results in pages of n IDs yields every stored ID exactly once, in order, n per page except the last.", "quantifier": "all numbers of IDs, page sizes and read-chunk sizes", "why_tests_cant": "The claim ranges over every list (any length, any duplicates, any order); tests fix a few short ones.", "anchors": ["rt1/rtresults.py: HDFaccessor._get_nids_iter"]}
{"id": "C65", "title": "Overriding config sections keeps the others", "statement": "override_config(override=False, section={...}) changes only the given keys: everything set by earlier overrides is kept.", "quantifier": "all histories of override_config", "why_tests_cant": "The claim ranges over every finite history of calls; tests run a handful of histories.", "anchors": ["rt1/rtprocess.py: RTprocess.override_config"]}
{"id": "C66", "title": "Existing results are only removed after explicit confirmation", "statement": "The destructive action runs exactly if the user typed REMOVE and then confirmed with Y or YES; any other answer sequence aborts without it.", "quantifier": "all answer sequences", "why_tests_cant": "Ranges over all strings.", "anchors": ["rt1/rtprocess.py: _confirm_input"]}
{"id": "C67", "title": "Auxiliary data belongs to its own feature", "statement": "After processing a sequence of features with one fit object, the auxiliary data attached to feature i is the one returned by the reader for feature i (none if none was returned).", "quantifier": "all sequences of reader results", "why_tests_cant": "The claim ranges over every finite history of calls; tests run a handful of histories.", "anchors": ["rt1/rtprocess.py: RTprocess._evalfunc"]}
{"id": "C68", "title": "Fit-parameter classification is a partition", "statement": "Every variable of a defdict is classified by the export as exactly one of constant, static-fitted, dynamic-fitted, auxiliary.", "quantifier": "all defdicts", "why_tests_cant": "The claim ranges over every list (any length, any duplicates, any order); tests fix a few short ones.", "anchors": ["rt1/rtprocess.py: RTprocess._defdict_parser"]}
{"id": "C69", "title": "A fixed angle is a single value", "statement": "When the geometry string declares an angle as fixed ('f'), either the given data has a single value of this angle (which is then used) or the call is rejected; an angle different from the given one is never used silently.", "quantifier": "all geometry strings and all arrays of angles", "why_tests_cant": "Needs every combination of geometry codes and angle arrays; the failing case (distinct exit azimuths with one incident azimuth) is not produced by the package's own set-ups.", "anchors": ["rt1/volume.py: legexpansion, p_theta_diff", "rt1/surface.py: legexpansion, brdf_theta_diff"]}
{"id": "C70", "title": "CosineLobe coefficients are Legendre projections", "statement": "The n-th Legendre coefficient of the cosine lobe is (2n+1)/2 times the integral over [-1,1] of the lobe function times P_n.", "quantifier": "all powers i accepted by the constructor and all n", "why_tests_cant": "Closed form with Gamma functions, infinitely many (i, n); tests evaluate a few partial sums.", "anchors": ["rt1/surface.py: CosineLobe"]}
{"id": "C71", "title": "HG_nadirnorm Legendre series", "statement": "The partial sums of the Legendre series of HG_nadirnorm converge to its function for every scattering angle cosine in [-1,1].", "quantifier": "all |t|<1, all weight vectors, all x in [-1,1]", "why_tests_cant": "A limit statement over a continuum.", "anchors": ["rt1/surface.py: HG_nadirnorm"]}
{"id": "C72", "title": "Linear combinations can be used with the interaction term", "statement": "The Legendre expansion of a linear combination (surface or volume) can be evaluated by the interaction term.", "quantifier": "all non-empty lists of choices", "why_tests_cant": "The volume case fails for every input, but only on the interaction path.", "anchors": ["rt1/volume.py: LinCombV", "rt1/surface.py: LinCombSRF"]}
{"id": "C73", "title": "Changing parameters of a scattering object takes effect", "statement": "After assigning new values to t or a of a Henyey-Greenstein object the next evaluation (function and coefficients) uses these values, whatever happened before.", "quantifier": "all sequences of assignments, evaluations and coefficient queries", "why_tests_cant": "Depends on the history of the object (memoised expressions).", "anchors": ["rt1/surface.py: HenyeyGreenstein", "rt1/volume.py: HenyeyGreenstein"]}
{"id": "C74", "title": "interaction() is the first-order interaction term", "statement": "The value returned by the interaction method equals (1-bsf)*NormBRDF*I0*omega*mu_0*(exp(-tau/mu_ex)*F(mu_0,mu_ex)+exp(-tau/mu_0)*F(mu_ex,mu_0)), where F is the double integral over all intermediate directions of the product of the phase-function expansion and the BRDF expansion with the attenuation kernel of the documentation; for a Rayleigh volume over a Lambertian surface these are the exact functions.", "quantifier": "all Legendre coefficient lists of any length, all weights a, all tau > 0, all incidence/exit directions with cosines in (0,1), all scalar parameters; also linear combinations of surfaces", "why_tests_cant": "An identity between a symbolic expansion pipeline and a double integral, for every number of coefficients; numerical tests compare with quadrature for a few cases.", "anchors": ["rt1/rt1.py: RT1.interaction", "rt1/rt1.py: RT1._calc_Fint_1", "rt1/rt1.py: RT1._calc_interaction_expansion", "rt1/rt1.py: RT1._extract_coefficients", "rt1/rt1.py: RT1._S2_mu"]}
{"id": "C75", "title": "The interaction term is a number for every admissible input", "statement": "interaction() returns a finite number for every zenith angle in [0, pi/2) and every tau >= 0.", "quantifier": "all objects, angles and optical depths", "why_tests_cant": "Boundary points (nadir, no vegetation) have to be found; tests sample the interior.", "anchors": ["rt1/rt1.py: RT1._S2_mu", "rt1/rt1.py: RT1.interaction"]}
{"id": "C76", "title": "The geometry shortcut does not change the interaction term", "statement": "Declaring angles as fixed ('f') or the geometry as 'mono' only speeds up the evaluation: interaction() returns the same value as with geometry 'vvvv' for the same angles.", "quantifier": "all geometry strings, all angle values, all scattering objects", "why_tests_cant": "Equality of two code paths for all angles and objects.", "anchors": ["rt1/volume.py: Volume.legexpansion", "rt1/surface.py: Surface.legexpansion", "rt1/rt1.py: RT1._calc_Fint_2"]}
{"id": "C77", "title": "Sign and linearity of the interaction term", "statement": "With non-negative expansions and parameters the interaction term is non-negative; the interaction term of a linear combination of surfaces, or of volumes, is the weighted sum of the interaction terms of its components, each expanded with the largest ncoefs among the components that share its weights a (its own ncoefs if those agree).", "quantifier": "all objects, all lists of components, all tau > 0, all directions with cosines in (0,1)", "why_tests_cant": "Ranges over a continuum and over all lists.", "anchors": ["rt1/rt1.py: RT1.interaction", "rt1/surface.py: LinCombSRF"]}
{"id": "C78", "title": "Reciprocity and rotation invariance of the interaction term", "statement": "Exchanging incidence and exit direction multiplies the interaction term by mu_ex/mu_0; rotating both azimuths by the same angle leaves it unchanged when the weights satisfy a_1 = a_2.", "quantifier": "all objects, directions and parameters (geometry 'vvvv')", "why_tests_cant": "Ranges over a continuum.", "anchors": ["rt1/rt1.py: RT1.interaction"]}
{"id": "C79", "title": "Omitted properties of a variable take the documented defaults", "statement": "A definition given to from_dict that leaves properties out (a shorter list, or a dictionary without some keys) defines the variable with the documented defaults for them (fitQ True, val 0.5, freq None, bounds 0 and 1, interpQ False).", "quantifier": "all variables, all short lists and all sub-dictionaries", "why_tests_cant": "Ranges over every prefix of every property list and every subset of keys with arbitrary values.", "anchors": ["rt1/_containers.py: _RT1_variable._from_list / _from_dict", "rt1/_containers.py: _RT1_defdict.add_variable"]}
{"id": "C80", "title": "Assigning to an existing defdict attribute redefines the variable", "statement": "After d.x = definition for a variable x that is already defined, reading the properties of x gives the new definition; add_variable does the same and keeps the position.", "quantifier": "all reachable defdicts, all defined variables, all definitions", "why_tests_cant": "Ranges over all histories leading to the assignment.", "anchors": ["rt1/_containers.py: _RT1_defdict.__setattr__"]}
{"id": "C81", "title": "A misspelled property name is rejected", "statement": "Defining a variable with a property name that does not exist raises and leaves the defdict unchanged, whether through add_variable, attribute assignment or from_dict.", "quantifier": "all variables, all unknown property names and values", "why_tests_cant": "Ranges over all strings that are not property names.", "anchors": ["rt1/_containers.py: _RT1_variable._from_dict", "rt1/_containers.py: _RT1_defdict.add_variable"]}
{"id": "C82", "title": "A configuration can override single components of a linear combination", "statement": "In a '#config NAME RT1_V' (or RT1_SRF) section, an entry X__name overrides that parameter of component X of the linear combination in the base section; the other components are kept.", "quantifier": "all ini files, configuration names and override sections", "why_tests_cant": "Ranges over all pairs of base and override sections.", "anchors": ["rt1/rtparse.py: RT1_configparser.get_config", "rt1/rtparse.py: RT1_configparser._parse_V_SRF"]}
{"id": "C83", "title": "An accepted override section takes effect", "statement": "If config_names accepts a section '#config NAME SECTION', the configuration NAME differs from the base configuration in what that section says.", "quantifier": "all ini files, names and overridden sections", "why_tests_cant": "Ranges over every section name an ini file can contain.", "anchors": ["rt1/rtparse.py: RT1_configparser.config_names", "rt1/rtparse.py: RT1_configparser.get_config"]}
{"id": "C84", "title": "A list specification with n entries gives a list with n entries", "statement": "A process-spec list__NAME, list__float__NAME or list__int__NAME whose value is a bracketed list of n comma separated fields is returned under NAME as the list of the n converted fields in order, white space around the fields removed.", "quantifier": "all names, all n >= 0, all fields without commas", "why_tests_cant": "Ranges over lists of every length and all padding.", "anchors": ["rt1/rtparse.py: RT1_configparser.get_process_specs"]}
{"id": "C85", "title": "Process-specs are parsed entry by entry", "statement": "Each entry of PROCESS_SPECS is available under its name with the value it would have if it were alone in the section.", "quantifier": "all PROCESS_SPECS sections", "why_tests_cant": "Ranges over all sections; the interaction of two entries is only visible for particular pairs of keys.", "anchors": ["rt1/rtparse.py: RT1_configparser.get_process_specs"]}
{"id": "C86", "title": "Metrics compare series on a common index", "statement": "_unify_idx_data returns the two series restricted to their common labels, so metrics of series with different time stamps are computed from matching values.", "quantifier": "all pairs of series, any labels, lengths and missing values", "why_tests_cant": "Ranges over all label sets, lengths and patterns of missing values.", "anchors": ["rt1/rtmetrics.py: _RTmetrics1._unify_idx_data", "rt1/rtmetrics.py: RTmetrics.__init__"]}
{"id": "C87", "title": "Spearman correlation depends on the order only", "statement": "The Spearman correlation is unchanged by a strictly increasing transformation of a series, changes sign under a strictly decreasing one, lies in [-1,1], is defined exactly if neither series is constant, and is 1 for strictly increasing relations.", "quantifier": "all pairs of series, all strictly monotone functions", "why_tests_cant": "Quantifies over all monotone functions and all series, including ties and missing values.", "anchors": ["rt1/rtmetrics.py: RTmetrics.spearman"]}
{"id": "C88", "title": "linregress is the least-squares line and agrees with pearson", "statement": "The slope and intercept of linregress are the unique minimiser of the squared misfit, and its r-value equals the pearson metric of the same two series.", "quantifier": "all complete series of equal length with non-constant first series", "why_tests_cant": "Optimality is a statement about all lines for all data.", "anchors": ["rt1/rtmetrics.py: RTmetrics.linregress", "rt1/rtmetrics.py: RTmetrics.pearson"]}
{"id": "C89", "title": "Mean relative error", "statement": "mape is invariant under a common scaling of both series, equals the mean of |x-y|/|x| when no reference value is zero, is infinite exactly if a zero reference value meets a nonzero value, and is undefined exactly if there is no other common value than pairs of zeros.", "quantifier": "all pairs of series", "why_tests_cant": "A case distinction over all positions of zeros and missing values in series of any length.", "anchors": ["rt1/rtmetrics.py: RTmetrics.mape"]}
{"id": "C90", "title": "The processing pool never deadlocks", "statement": "From every state that a processing run (no failed write, no signal; at least one worker, combiner, writer, chunk size and cache size at least 1) can reach, the run can still be completed, and then all results are stored exactly once.", "quantifier": "all reachable states of all schedules, all numbers of processes, all task results", "why_tests_cant": "Absence of deadlock is a statement about all interleavings of all processes.", "anchors": ["rt1/_rtprocess_writer.py: RT1_processor.run_starmap", "rt1/_rtprocess_writer.py: RT1_processor._combiner_process", "rt1/_rtprocess_writer.py: RT1_processor._save_file_process", "rt1/_rtprocess_writer.py: RT1_processor._worker_process"]}
{"id": "C91", "title": "Resuming never stores an ID twice", "statement": "However often a processing is started on the same container and wherever the runs were interrupted, no ID is stored twice.", "quantifier": "all finite histories of runs, arbitrary argument lists, arbitrary parts stored by each run", "why_tests_cant": "Ranges over all histories of interrupted runs.", "anchors": ["rt1/_rtprocess_writer.py: RT1_processor._check_IDs", "rt1/rtprocess.py: RTprocess._extract_ID", "rt1/processing_config.py: rt1_processing_config.get_names_ids"]}
{"id": "C92", "title": "Every argument is accounted for", "statement": "Whatever reader and fit do, _evalfunc returns a fit, None or raises; with a dump path nothing propagates; an empty dataset is skipped; and after an undisturbed run the total count equals the number of arguments and the mean count the number of arguments with a result.", "quantifier": "all readers, fits, exceptions, schedules", "why_tests_cant": "Quantifies over all behaviours of user-supplied functions and all interleavings.", "anchors": ["rt1/rtprocess.py: RTprocess._evalfunc", "rt1/processing_config.py: rt1_processing_config.exceptfunc", "rt1/_rtprocess_writer.py: RT1_processor._worker_process"]}
{"id": "C93", "title": "Accepted return values of the reader", "statement": "A reader may return a table, or a list or tuple that starts with a table; the further elements become aux_data and the table is fitted.", "quantifier": "all numbers of further elements, all table sizes", "why_tests_cant": "Ranges over all lengths of returned sequences.", "anchors": ["rt1/rtprocess.py: RTprocess._evalfunc"]}
{"id": "C94", "title": "The jacobian handed to the optimiser is the derivative of the residuals", "statement": "The matrix returned by the jacobian callback of performfit is, entry by entry, the derivative of the residual vector returned by the function callback with respect to the optimiser's vector.", "quantifier": "all datasets and group assignments, all differentiable models, all data weights", "why_tests_cant": "A statement about derivatives for every model function, every grouping and every weighting; finite differences at some points cannot settle it.", "anchors": ["rt1/rtfits.py: Fits.performfit (fun, dfun)", "rt1/rtfits.py: Fits._calc_jac", "rt1/rtfits.py: Fits.data_weights"]}
{"id": "C95", "title": "The jacobian respects interpolated parameters", "statement": "For parameters that are interpolated between their fitted values, the jacobian entry of observation i and fitted value g is the derivative of the model for observation i with respect to fitted value g.", "quantifier": "all interpolation weights (value of an observation = linear combination of the fitted values), all differentiable models", "why_tests_cant": "Quantifies over all interpolation weights and models.", "anchors": ["rt1/rtfits.py: Fits._assignvals", "rt1/rtfits.py: Fits._calc_jac"]}
{"id": "C97", "title": "Evaluations do not influence each other", "statement": "The result of fit.calc(res_dict, ...) depends on the attributes of the fit object and the arguments only, not on earlier evaluations of this or other fit objects.", "quantifier": "all fit objects, all finite sequences of evaluations", "why_tests_cant": "Ranges over every finite history of evaluations with any arguments on any number of objects sharing the caches.", "anchors": ["rt1/rtfits.py: Fits.calc", "rt1/rtfits.py: Fits._calc_model", "rt1/rtfits.py: Fits._init_V_SRF", "rt1/rtfits.py: Fits.__setattr__"]}
{"id": "C98", "title": "Arguments of accessor callbacks can be replaced per call", "statement": "The functions returned by mfit.accessor.<method>(*args, **kwargs) are called with the arguments given to the accessor, where arguments given in the call itself take precedence (for that call).", "quantifier": "all positional and keyword arguments, all sequences of calls", "why_tests_cant": "Ranges over every finite sequence of calls with any arguments.", "anchors": ["rt1/rtfits.py: _MultiAccessors.lazy"]}
{"id": "C99", "title": "Reading one ID returns exactly its rows", "statement": "get_id(ID) returns exactly the stored rows of this ID, in the stored order; an unknown ID is reported by a KeyError / IndexError and never returns the rows of another one, also if IDs are given by their name.", "quantifier": "all stored tables, all IDs and names", "why_tests_cant": "Ranges over all tables (any number of IDs and rows) and every ID or name.", "anchors": ["rt1/rtresults.py: HDFaccessor._get_id", "rt1/rtresults.py: HDFaccessor._ID_to_IDnum"]}
{"id": "C100", "title": "Configuration of a run", "statement": "The configuration used by a run is the config-file given to RTprocess with the values of override_config; files in an existing dumpfolder are not overwritten.", "quantifier": "all config-files, overrides, answers and contents of the file system", "why_tests_cant": "Ranges over all histories of runs in the same dumpfolder with any config-files and overrides.", "anchors": ["rt1/rtprocess.py: RTprocess.setup", "rt1/rtprocess.py: RTprocess.override_config", "rt1/rtprocess.py: RTprocess.run_processing"]}
{"id": "C101", "title": "reinit_object shares everything but what is replaced", "statement": "fit.reinit_object(share_fnevals, share_auxdata, **kwargs) creates a fit with all attributes of the parent except those passed as kwargs; aux_data and the pre-evaluated functions are shared exactly if requested.", "quantifier": "all fit objects, options and keyword arguments", "why_tests_cant": "Ranges over all attribute values and all combinations of arguments.", "anchors": ["rt1/rtfits.py: Fits.reinit_object", "rt1/rtfits.py: Fits._reinit_object", "rt1/rtfits.py: Fits.__init__"]}
{"id": "C102", "title": "Features are processed independently of each other", "statement": "The record stored for a feature carries the ID, reader-arguments and dataset of this feature, and its results are those obtained if the feature were processed alone, whatever features (also failing ones) have been processed before with the same (Multi)Fits object.", "quantifier": "all sequences of features, reader results and fit outcomes", "why_tests_cant": "Ranges over every finite history of features including failures.", "anchors": ["rt1/rtprocess.py: RTprocess._evalfunc", "rt1/rtfits.py: MultiFits.set_dataset", "rt1/rtfits.py: Fits.performfit"]}
{"id": "C103", "title": "hdf_export_kwargs select the stored tables", "statement": "With hdf_export_kwargs the tables res_dict, res_df and aux_data are stored exactly if the corresponding option save_results, save_res_df, save_auxdata is not False.", "quantifier": "all option dictionaries, features, Fits and MultiFits objects", "why_tests_cant": "Ranges over all option sets and all features.", "anchors": ["rt1/rtfits.py: Fits._get_fit_to_hdf_dict", "rt1/rtfits.py: MultiFits._get_fit_to_hdf_dict", "rt1/rtprocess.py: RTprocess._evalfunc"]}
{"id": "C104", "title": "A configuration file is accepted exactly if it is complete", "statement": "Opening a configuration file succeeds if and only if all seven sections (PROCESS_SPECS, CONFIGFILES, fits_kwargs, least_squares_kwargs, defdict, RT1_V, RT1_SRF) are present, PROCESS_SPECS has path__save_path and dumpfolder, and CONFIGFILES gives the location module__NAME of the processing module, NAME being the value of processing_cfg_module or 'processing_cfg' if that key is absent. Otherwise an AssertionError is raised (a TypeError if and only if the file is otherwise complete and processing_cfg_module has no value).", "quantifier": "for all configuration files (all sections, keys and optional values)", "why_tests_cant": "the accepted files are an infinite set; a test can only open a few complete and a few incomplete ones", "anchors": ["rt1/rtparse.py:RT1_configparser._check_integrity", "rt1/rtparse.py:RT1_configparser.__init__"]}
{"id": "C105", "title": "Values of a configuration file have the documented types", "statement": "Every argument read from least_squares_kwargs and fits_kwargs has the documented type: verbose and max_nfev integers, ftol, gtol and xtol floats, sig0, dB and int_Q truth values, all others their text, or None if there is no value or it is 'None'; a value that does not convert makes the configuration unreadable. A truth value is true exactly for 1, yes, true, on and false exactly for 0, no, false, off, in any mixture of upper and lower case, and nothing else is accepted. A list of truth values or of dates in the process specifications is converted element by element, dates with the format written behind the list (fmt=...) or else the default format.", "quantifier": "for all files, keys, texts, lists, formats and white space around the elements", "why_tests_cant": "the texts a user may write (all spellings, lists of every length, arbitrary formats) cannot be enumerated", "anchors": ["rt1/rtparse.py:RT1_configparser._parse_dict", "rt1/rtparse.py:RT1_configparser.get_process_specs", "rt1/rtparse.py:RT1_configparser._to_dt"]}
{"id": "C106", "title": "Assigning to a position of the property list of a variable", "statement": "d[name][i] = v, with i from 0 to 4 or from -5 to -1, replaces exactly what stands at position i of the documented list [fitQ, val, freq, ([min], [max]), interpQ] of that variable and nothing else; any other i raises an IndexError and changes nothing.", "quantifier": "for all defdicts a program can build, all variables, positions and values", "why_tests_cant": "a test checks single assignments on single objects, not every value on every reachable defdict", "anchors": ["rt1/_containers.py:_RT1_variable.__setitem__", "rt1/_containers.py:_RT1_variable._props"]}
{"id": "C107", "title": "Every requested parameter is exported", "statement": "export_data_to_HDF(parameters) writes every requested parameter that is available in the dataset, the fit results, the reader-arguments, the model contributions or via an export function, with its value, series into the dynamic table and single values into the static one, and nothing else.", "quantifier": "all parameter lists, fits, definitions and export functions", "why_tests_cant": "Ranges over all definitions, data and requests, whose interplay (set operations on the names) selects the source of each value.", "anchors": ["rt1/rtprocess.py: RTprocess.export_data_to_HDF", "rt1/rtprocess.py: RTprocess._HDF_export_postprocess", "rt1/rtprocess.py: RTprocess._postprocess_getparams"]}
{"id": "C108", "title": "sig_to_dB and inc_to_degree convert the exported data", "statement": "With sig_to_dB backscatter data and model contributions that are not in dB already are exported in dB, with inc_to_degree incidence angles are exported in degrees.", "quantifier": "all fits, files and requests", "why_tests_cant": "Ranges over all data and both states of each option.", "anchors": ["rt1/rtprocess.py: RTprocess.export_data_to_HDF", "rt1/rtprocess.py: RTprocess._postprocess_getparams"]}
{"id": "C109", "title": "Export functions are used for every fit", "statement": "A parameter with an export function is exported with the value of this function for every configuration of every file.", "quantifier": "all lists of files, configurations, requests and export functions", "why_tests_cant": "Ranges over every sequence of files that is processed with the same (mutable) request.", "anchors": ["rt1/rtprocess.py: RTprocess._HDF_export_postprocess"]}
{"id": "C110", "title": "Every requested metric is exported", "statement": "The metrics table of each exported fit holds, in the order of the request, each metric evaluated on this fit for the requested pair of parameters, custom metrics with the value of their export function.", "quantifier": "all metric dictionaries, fits and files", "why_tests_cant": "Ranges over all metric requests and all fits.", "anchors": ["rt1/rtprocess.py: RTprocess._HDF_export_postprocess"]}
{"id": "C111", "title": "hemreflect converges to the hemispherical reflectance", "statement": "hemreflect(returnarray=True) returns one value for each incidence angle t_0_min, t_0_min + t_0_step, ... below t_0_max, in this order, and for a growing number of samples simps_N the values converge to NormBRDF times the integral of BRDF cos(theta) over the upper hemisphere.  This holds for every shipped surface and every linear combination; for Isotropic the limit is NormBRDF at every angle, for HG_nadirnorm at nadir.", "quantifier": "all BRDFs continuous in the direction of scattering, all normalisations, grids and azimuth angles, every tolerance", "why_tests_cant": "Convergence is a statement about every tolerance and infinitely many numbers of samples; the BRDF is an arbitrary function.", "anchors": ["rt1/rtplots.py: hemreflect", "rt1/surface.py: Surface.hemreflect"]}
{"id": "C112", "title": "The warning of a reflectance above 1 is justified", "statement": "hemreflect warns of a hemispherical reflectance above 1 only if the reflectance exceeds 1 at one of the angles.", "quantifier": "all surfaces, normalisations, grids and numbers of samples", "why_tests_cant": "Depends on the sign of the quadrature error for every number of samples.", "anchors": ["rt1/rtplots.py: hemreflect"]}
{"id": "C96", "title": "Chain rule for tau, omega and NormBRDF given as expressions", "statement": "If tau, omega or NormBRDF are given as expressions of fitted parameters and auxiliary data, the jacobian handed to the optimiser contains the derivatives of the model by the fitted parameters.", "quantifier": "all expressions, parameter values, groups, auxiliary data and models", "why_tests_cant": "Ranges over all expressions; which of them are evaluated correctly depends on the interplay of Python lists and numpy arrays for every shape of the data.", "anchors": ["rt1/rtfits.py: Fits._calc_jac", "rt1/rtfits.py: Fits._get_V_SRF_diff_funcs"]}
{"id": "C113", "title": "Scattering functions from a dictionary use the values of the parameters", "statement": "If set_V_SRF is a dictionary, every property of the volume and surface scattering functions, also of the components of a linear combination, has the value of its definition with the fixed numbers of defdict in place of their names, and free_symbols holds exactly the symbols that are left in it (other than those of tau, omega, NormBRDF, bsf).", "quantifier": "all dictionaries of properties (numbers, names, expressions; nested linear combinations), all parameter values", "why_tests_cant": "Ranges over all definitions and nestings of linear combinations.", "anchors": ["rt1/rtfits.py: Fits._init_V_SRF"]}
{"id": "C114", "title": "A stored fit is loaded with the same scattering functions", "statement": "If set_V_SRF is a function, each attribute of the scattering functions of the stored and loaded fit has, for all values of the variables, the value it has in the original fit.", "quantifier": "all expressions of the variables in set_V_SRF, all fixed and free values", "why_tests_cant": "Ranges over all functions set_V_SRF and all values of the variables.", "anchors": ["rt1/rtfits.py: Fits._get_V_SRF_dict", "rt1/volume.py: Volume.init_dict", "rt1/surface.py: Surface.init_dict", "rt1/rtresults.py: HDFaccessor._load_fit"]}
{"id": "C115", "title": "Stored definitions can be read back", "statement": "The definitions of a fit (defdict, keyword arguments) that are stored as text are read back unchanged.", "quantifier": "all nested values", "why_tests_cant": "Ranges over all nested values of the definitions.", "anchors": ["rt1/rtfits.py: Fits._get_fit_to_hdf_dict", "rt1/rtresults.py: HDFaccessor._load_fit"]}
{"id": "C116", "title": "The minimised function is the weighted sum of squares over all observations", "statement": "The vector of residuals of a fit has exactly one entry for each observation, the weight times the difference of the model, evaluated with the parameter values of the groups of this observation, and the measurement; entries that fill up shorter groups do not count. Its sum of squares is the sum over the dataset.", "quantifier": "all datasets, weights, group assignments of the parameters and values of the parameters", "why_tests_cant": "Ranges over all ways observations may be grouped (unequal groups are padded by repeating values).", "anchors": ["rt1/rtfits.py: Fits.performfit (fun)", "rt1/rtfits.py: Fits._calc_model"]}
{"id": "C117", "title": "calc_model returns the model value of each observation in the order of the dataset", "statement": "calc_model(return_components=False) has one row for each observation, with its date and the model value for its own parameter values, in the order of the dataset.", "quantifier": "all datasets and group assignments", "why_tests_cant": "Ranges over all ways observations may be grouped.", "anchors": ["rt1/rtfits.py: Fits.calc_model", "rt1/rtfits.py: Fits._calc_model"]}
{"id": "C118", "title": "res_df holds the value that was used for each observation", "statement": "res_df has one row for each date, and the value of a parameter in it is the value that was used for the observations of this date.", "quantifier": "all datasets and group assignments", "why_tests_cant": "Ranges over all ways observations may be grouped, including different groups at one date.", "anchors": ["rt1/rtfits.py: Fits.res_df"]}
{"id": "C119", "title": "res_df_group holds the value of each group at its mean date", "statement": "res_df_group has one row for each combined group, with the mean date of its observations and the value of the parameter that was used for all of them.", "quantifier": "all datasets and group assignments", "why_tests_cant": "Ranges over all ways observations may be grouped.", "anchors": ["rt1/rtfits.py: Fits.res_df_group", "rt1/rtfits.py: Fits.meandatetimes_group"]}
{"id": "C120", "title": "Interpolated parameters have one node for each run of a group", "statement": "The nodes for interpolating a fitted parameter are, for each maximal run of consecutive observations of the same group, the mean date of the run with the value of the group.", "quantifier": "all datasets and group assignments", "why_tests_cant": "Ranges over all sequences of group numbers.", "anchors": ["rt1/rtfits.py: Fits._meandt_interp_assigns", "rt1/rtfits.py: Fits.meandatetimes"]}
{"id": "C121", "title": "A dumped fit is loaded with the same attributes", "statement": "fit.dump(path) leaves the fit as it is, and load(path) returns an object with the same attributes; with mini=True all of them but the prepared functions of the interaction term and fit_output. This holds for any number of dumps in a row, and for each config of a MultiFits object.", "quantifier": "all fit objects of the current version, all sequences of dumps (mini or full)", "why_tests_cant": "Ranges over all attributes and sequences of dumping and loading; a test sees one object dumped once.", "anchors": ["rt1/rtfits.py: Fits.dump", "rt1/rtfits.py: Fits.__getstate__", "rt1/rtfits.py: Fits.__setstate__", "rt1/rtfits.py: Fits.__update__", "rt1/rtfits.py: load", "rt1/rtfits.py: MultiFits.dump"]}
{"id": "C122", "title": "Success, status and optimality of a fit survive dumping", "statement": "After dump(mini=True) and load the fit_output of a fit holds success, status and optimality of the optimisation, however often it is dumped, and copies of a fit keep fit_output.", "quantifier": "all fit objects, all sequences of dumps, including dumps that fail", "why_tests_cant": "Ranges over sequences of dumps; the first one behaves as expected.", "anchors": ["rt1/rtfits.py: Fits.__getstate__", "rt1/rtfits.py: Fits.dump"]}
{"id": "C123", "title": "The contributions solve the radiative transfer equation to first order", "statement": "For a layer of optical depth tau over a surface, the intensity at the top of the layer that follows from the first-order radiative transfer equation (direct beam, radiation scattered once in the layer, surface as boundary condition; reciprocal phase function and BRDF) is unique and equals the sum of the surface, volume and interaction contribution. RT1.calc returns it for the functions described by the expansions, mixed with the bare-soil intensity according to bsf.", "quantifier": "all phase functions and BRDFs with continuous azimuth products, all I0, omega, tau > 0, bsf, NormBRDF, all incidence and exit directions above the horizon; for calc all expansions with any number of coefficients", "why_tests_cant": "The statement is about solutions of an integro-differential equation over a continuum of directions and depths; a test can compare a few numbers with a quadrature.", "anchors": ["rt1/rt1.py: RT1.calc", "rt1/rt1.py: RT1.surface", "rt1/rt1.py: RT1.volume", "rt1/rt1.py: RT1.interaction", "doc/theory.rst"]}
{"id": "C124", "title": "Each result in a folder is found under its name", "statement": "RTresults(folder) finds each sub-folder with cfg, results and dumps under its name and lists each of them once; a folder that is itself a result is listed under its own name, and nothing else is listed.", "quantifier": "all folders and their contents", "why_tests_cant": "Ranges over all directory trees and names, including names with dots and nested results.", "anchors": ["rt1/rtresults.py: RTresults.__init__", "rt1/rtresults.py: RTresults._check_folderstructure", "rt1/rtresults.py: RTresults._addresult", "rt1/rtresults.py: RTresults.__getitem__", "rt1/rtresults.py: RTresults.__iter__"]}
{"id": "C125", "title": "Fits are loaded from dump-files by ID, by position or at random", "statement": "With use_dumps, load_fit(ID) loads the file of the feature ID (and returns the ID if asked for), load_fit(i) the i-th file that dump_files lists, load_fit() one of the files, and dump_fits yields the fits of all of them; dump_files lists exactly the .dump files without error in the name.", "quantifier": "all folders of dump-files, all IDs and positions", "why_tests_cant": "Ranges over all names of features and folder contents.", "anchors": ["rt1/rtresults.py: RTresults._RT1_fitresult.load_fit", "rt1/rtresults.py: RTresults._RT1_fitresult.dump_files", "rt1/rtresults.py: RTresults._RT1_fitresult.dump_fits"]}
{"id": "C126", "title": "Fits are loaded from the HDF container by ID or position", "statement": "Without use_dumps, load_fit(ID) loads the fit of the feature ID, load_fit(i) the i-th feature that is stored, and with return_ID=True the ID is returned as well.", "quantifier": "all containers (numbers and names in any order), all IDs", "why_tests_cant": "Depends on the order in which features were stored and on those that failed.", "anchors": ["rt1/rtresults.py: RTresults._RT1_fitresult.load_fit", "rt1/rtresults.py: HDFaccessor._load_fit", "rt1/rtresults.py: HDFaccessor._ID_to_IDnum", "rt1/rtresults.py: HDFaccessor._get_id"]}
{"id": "C127", "title": "run_finaloutput(use_dumps=True) processes the fits of the dump-files", "statement": "run_finaloutput(use_dumps=True) hands the fits of all dump-files (or of the first N) to the postprocess function, for each call in the mode that was asked for.", "quantifier": "all save paths and folder names, all folder contents, all sequences of calls", "why_tests_cant": "Ranges over relative and absolute paths and sequences of calls.", "anchors": ["rt1/rtprocess.py: RTprocess._get_files", "rt1/rtprocess.py: RTprocess._finalout_reader", "rt1/rtresults.py: RTresults._RT1_fitresult.load_fit"]}
{"id": "C128", "title": "Every table of a HDF file can be accessed", "statement": "HDFaccessor.datasets.<table> and datasets.<config>.<table> read the table of this name; get_data(path, table, config) reads the table of the config, and without config the table outside of configs.", "quantifier": "all sets of tables of a file", "why_tests_cant": "Ranges over all names of tables and configs.", "anchors": ["rt1/rtresults.py: HDFaccessor.__init__", "rt1/rtresults.py: _cfgselector", "rt1/_rtprocess_writer.py: RT1_processor.get_data"]}
{"id": "C129", "title": "create_index indexes the requested levels of each table", "statement": "create_index creates, for each table of the file, an index on its first level (default), on all levels (\"all\") or on those of the given levels that the table has; tables without any of them are skipped.", "quantifier": "all files and their tables, all arguments idx_levels", "why_tests_cant": "Ranges over all combinations of tables with simple and multiple indexes.", "anchors": ["rt1/_rtprocess_writer.py: RT1_processor.create_index"]}
{"id": "C130", "title": "Refusing at the prompt and errors of the setup are reported as such", "statement": "If the user answers no at the prompt of run_processing, nothing is changed on disc, in the object and in logging, and the program stops with exit code 0; exceptions raised while a run is set up or executed reach the caller.", "quantifier": "all states of the object, of the disc and of logging, all answers, log-levels and exceptions", "why_tests_cant": "Needs a terminal, existing results and failing setups in all combinations.", "anchors": ["rt1/rtprocess.py: RTprocess.run_processing", "rt1/rtprocess.py: RTprocess.run_finaloutput", "rt1/rtprocess.py: RTprocess.setup", "rt1/rtprocess.py: _confirm_input"]}
{"id": "C131", "title": "Runs without a log-file", "statement": "run_processing and run_finaloutput with logfile_level=None do the same as with a log-file, without writing one.", "quantifier": "all states, configurations and later errors", "why_tests_cant": "All tests use the default; the statement is about every run.", "anchors": ["rt1/rtprocess.py: RTprocess.run_processing", "rt1/rtprocess.py: RTprocess.run_finaloutput"]}
{"id": "C132", "title": "A session leaves logging as it was", "statement": "After any sequence of calls the handlers of the rt1 logger, those of py.warnings, the level of the logger and the capturing of warnings are as before.", "quantifier": "all sequences of run_processing, run_finaloutput and override_config, with all errors", "why_tests_cant": "Ranges over all call sequences; effects accumulate over runs.", "anchors": ["rt1/rtprocess.py: RTprocess._worker_configurer", "rt1/rtprocess.py: RTprocess.run_processing", "rt1/rtprocess.py: RTprocess.run_finaloutput"]}
{"id": "C133", "title": "finalout_name and the settings of the object", "statement": "run_finaloutput(finalout_name=n) writes to n; the call does not change the settings (overrides, autocontinue) or the output name of later calls.", "quantifier": "all states, names, log-levels, errors and later calls without a name", "why_tests_cant": "Needs histories of calls on one object, including failing ones.", "anchors": ["rt1/rtprocess.py: RTprocess.run_finaloutput", "rt1/rtprocess.py: RTprocess.override_config"]}
{"id": "C134", "title": "Each worker is initialised once", "statement": "Each worker of a pool is set up once, connected to the queue of its run only, and calls the initializer of the user once with its arguments.", "quantifier": "all pool_kwargs, all numbers of runs in which the same dict is used", "why_tests_cant": "Happens in worker processes and only for repeated runs.", "anchors": ["rt1/rtprocess.py: RTprocess._processfunc", "rt1/rtprocess.py: RTprocess._initializer"]}
{"id": "C135", "title": "The features to process come from one source", "statement": "The features are those of the argument reader_args or those returned by preprocess(); it is an AssertionError if both or none provide them.", "quantifier": "all arguments and all returns of preprocess", "why_tests_cant": "A decision rule over all combinations.", "anchors": ["rt1/rtprocess.py: RTprocess._processfunc"]}
{"id": "C136", "title": "init_kwargs of the constructor", "statement": "RTprocess(config, init_kwargs=...) changes the given settings of the config-file for the run.", "quantifier": "all non-empty init_kwargs and all config-files", "why_tests_cant": "Universal statement about all dicts.", "anchors": ["rt1/rtprocess.py: RTprocess.__init__", "rt1/rtprocess.py: RTprocess.setup"]}
{"id": "C137", "title": "Slopes and curvatures of models built from the shipped scattering functions", "statement": "For every RT1 object in monostatic geometry whose V and SRF are shipped functions (Rayleigh, HenyeyGreenstein, HGRayleigh; Isotropic, CosineLobe, HenyeyGreenstein, HG_nadirnorm) or any linear combination of them, with asymmetry parameters in (-1,1), generalisation weights in [-1,1] and parameters given as numbers or symbols, surface_slope, volume_slope, tot_slope and the three curvatures are the first and second derivatives of the contributions with respect to the incidence angle, in linear, sigma0 and dB units (dB: where the contribution is positive, which is proved for volume and total if the vegetation scatters); the only exception are incidence angles at the edge of a cosine lobe of too low power.", "quantifier": "all shipped functions and linear combinations of any length, all parameter values in range, all incidence angles below 90 degrees, all units", "why_tests_cant": "Tests compare slopes at a few angles for a few functions; differentiability at every angle for every combination is a statement about a continuum of functions.", "anchors": ["rt1/rt1.py:surface_slope", "rt1/rt1.py:volume_slope", "rt1/rt1.py:tot_slope", "rt1/rt1.py:tot_curv", "rt1/volume.py:_func", "rt1/surface.py:_func", "rt1/volume.py:LinCombV", "rt1/surface.py:LinCombSRF"]}
{"id": "C138", "title": "Jacobian entries of symbolic parameters of the shipped scattering functions", "statement": "If an asymmetry parameter or a weighting factor of a shipped function is given as a symbol (possibly the same symbol at several places of V and SRF), the jacobian entry of that symbol is the derivative of the total contribution with respect to its value in linear, sigma0 and dB units.", "quantifier": "all shipped functions and linear combinations, all symbols other than the four built-in names, all values in range, all geometries and units", "why_tests_cant": "Finite differences at a few values of one function cannot cover all combinations and shared symbols.", "anchors": ["rt1/rt1.py:RT1.jacobian", "rt1/rt1.py:RT1._d_surface_ddummy", "rt1/rt1.py:RT1._d_volume_ddummy"]}
{"id": "C139", "title": "Sign, bounds and monotonicity of shipped models", "statement": "With shipped functions, asymmetry parameters in (-1,1), generalisation weights in [-1,1] and nonnegative weighting factors, surface and volume contributions are nonnegative, bounded by their unattenuated / saturated values, monotone in the optical depth, and the total is positive as soon as the vegetation scatters.", "quantifier": "all shipped functions and linear combinations, all geometries, all parameter values in range", "why_tests_cant": "Positivity over a continuum of angles and parameters.", "anchors": ["rt1/rt1.py:surface", "rt1/rt1.py:volume", "rt1/volume.py:_func", "rt1/surface.py:_func"]}
{"id": "C140", "title": "Helmholtz reciprocity of surface and volume contributions", "statement": "Exchanging incidence and exit direction of a bistatic object built from shipped functions changes surface, volume and their sum exactly by the ratio of the cosines of the two zenith angles (I/cos(theta_0) is symmetric).", "quantifier": "all shipped functions and linear combinations, all pairs of directions, all parameter values", "why_tests_cant": "A symmetry over all pairs of directions.", "anchors": ["rt1/rt1.py:surface", "rt1/rt1.py:volume", "rt1/scatter.py:scat_angle"]}
{"id": "C141", "title": "Truncated expansions change the interaction term by a bounded amount", "statement": "If the Legendre expansions used for the coefficients stay within eV and eS of a phase function and a BRDF (bounded by BV and BS), the value returned by interaction() differs from the first-order interaction term of these functions by at most strength*(pi/tau)*(eV*(BS+eS)+BV*eS); if the expansions converge uniformly, the interaction term of the exact functions exists, is unique, and the returned values converge to it.", "quantifier": "all phase functions, BRDFs, expansions, optical depths > 0, oblique geometries and parameter values", "why_tests_cant": "The exact term is an improper integral without closed form; a test can compare two truncations but has no exact reference.", "anchors": ["rt1/rt1.py: RT1.interaction, RT1._calc_Fint_1, RT1._calc_Fint_2, RT1._S2_mu", "rt1/volume.py: legexpansion", "rt1/surface.py: legexpansion"]}
{"id": "C142", "title": "Error as a function of ncoefs for Henyey-Greenstein functions", "statement": "With N and M coefficients, the Henyey-Greenstein phase function and BRDF (also HG_nadirnorm and HGRayleigh) are reproduced up to an explicit multiple of the tail sum over n >= N of (2n+1)|t|^n, and the interaction term of a HG layer over a HG surface is off by at most strength/(4 pi tau) times (tail_V*(total_S+tail_S)+total_V*tail_S). The tails decrease in N and vanish.", "quantifier": "all asymmetry parameters in (-1,1), generalisation weights in [-1,1], N, M >= 1, all geometries", "why_tests_cant": "A statement about all N and t: the error of a truncated infinite series.", "anchors": ["rt1/volume.py: HenyeyGreenstein, HGRayleigh", "rt1/surface.py: HenyeyGreenstein, HG_nadirnorm", "rt1/rt1.py: interaction"]}
{"id": "C143", "title": "Interaction term converges to the exact one for all shipped functions", "statement": "For every phase function and BRDF made of the shipped classes (single or linear combinations with number or symbol weights), interaction() computed with ncoefs = N converges for N to infinity to the first-order interaction term of the textbook functions.", "quantifier": "all combinations of shipped functions with admissible parameters (cosine lobes of power >= 1), all oblique geometries, tau > 0", "why_tests_cant": "Limit over N of a computation for infinitely many models.", "anchors": ["rt1/volume.py", "rt1/surface.py", "rt1/rt1.py: interaction"]}
{"id": "C144", "title": "Parameter values reach the part of the model they belong to", "statement": "An evaluation of the model of a fit with given parameter values (fitted and fixed) sets omega, tau and NormBRDF to the values of their definitions for exactly those parameters (or to the number given under their own name), bsf to its number, and hands the scattering functions exactly the parameters that are not used only in those definitions, each with its given value (fixed values win over fitted ones; a parameter used in both places reaches both). Fits.calc succeeds exactly if every symbol of the functions is provided by defdict, every symbol of the definitions is given and every symbol of the functions is given; otherwise it raises AssertionError, KeyError or NameError respectively.", "quantifier": "for all models (sets of symbols, definitions), defdicts, old values and dicts of values", "why_tests_cant": "the routing depends on set operations over arbitrary overlaps of names between functions and definitions; tests use a handful of disjoint names", "anchors": ["rt1/rtfits.py:Fits._set_calc_values", "rt1/rtfits.py:Fits._get_excludesymbs", "rt1/rtfits.py:Fits.calc", "rt1/rtfits.py:Fits._param_R_dict"]}
{"id": "C145", "title": "A fit that can be set up can be evaluated", "statement": "If every name in the definitions of V and SRF is an entry of defdict that is a number, fitted or auxiliary, then R can be built and the model can be evaluated in the fit with a value for every symbol of the scattering functions.", "quantifier": "for all defdicts, definitions and values", "why_tests_cant": "the failing combinations are overlaps of names between functions, definitions and reserved names", "anchors": ["rt1/rtfits.py:Fits._param_R_dict", "rt1/rtfits.py:Fits._get_excludesymbs", "rt1/rtfits.py:Fits._init_V_SRF", "rt1/volume.py:Volume.p", "rt1/surface.py:Surface.brdf"]}
{"id": "C146", "title": "Constants of defdict are used as given", "statement": "A parameter with fitQ False is used with its constant val (float or DataFrame) in every evaluation of the fit.", "quantifier": "for all defdicts, models and values", "why_tests_cant": "tests use constants that are numbers", "anchors": ["rt1/rtfits.py:Fits._setdict", "rt1/rtfits.py:Fits.fixed_dict", "rt1/rtfits.py:Fits._param_R_dict"]}
{"id": "C147", "title": "Evaluating the model does not change the results or the caller's dicts", "statement": "Fits.calc_model and Fits.calc change neither the fitted values res_dict nor any dict handed over by the caller.", "quantifier": "for all dicts, fixed values and datasets", "why_tests_cant": "aliasing only shows after particular sequences of calls", "anchors": ["rt1/rtfits.py:Fits._set_calc_values", "rt1/rtfits.py:Fits._assignvals", "rt1/rtfits.py:Fits.calc", "rt1/rtfits.py:Fits.calc_model", "rt1/rtfits.py:Fits.res_df"]}
{"id": "C148", "title": "The lines of a polar plot show the functions", "statement": "polarplot draws, for every dict in param_dict and every incidence-angle in inc, in this order, one solid line whose radius at each drawn angle is the textbook value of the phase function (or BRDF) for that incidence-angle in degrees and that scattering angle in the plane of incidence, and, exactly if aprox is True, one dashed line with the Legendre approximation; the distance between dashed and solid lines is bounded by a sequence that tends to 0 with ncoefs, for all incidence-angles and all points at once.", "quantifier": "for all shipped phase functions and BRDFs and their combinations, all admissible parameters and all lists of incidence-angles", "why_tests_cant": "plots are only looked at; convergence of the approximation is a limit, uniform over a continuum of angles", "anchors": ["rt1/rtplots.py:polarplot", "rt1/volume.py:Volume.p", "rt1/surface.py:Surface.brdf"]}
{"id": "C149", "title": "Options of a polar plot", "statement": "With admissible arguments polarplot returns the figure, given axes are used, the radial axis covers all solid lines of a phase function, and the labels of the angular axis give the angles at the ticks.", "quantifier": "for all scattering functions and options", "why_tests_cant": "the failing branch is reached only with user-supplied axes; the range is a maximum over a grid for arbitrary functions", "anchors": ["rt1/rtplots.py:polarplot"]}
{"id": "C150", "title": "Log-files receive the messages logged while they are open", "statement": "After any history of start_log_to_file, stop_log_to_file, set_log_handler_level and log messages, a message of level >= DEBUG logged by rt1 is written to a path exactly once for each name whose last start was at this path (and was not stopped or restarted since) and whose level is not above that of the message; nothing else of the user is written, and a failing start does not affect open log-files.", "quantifier": "for all histories of calls, names, paths, levels, messages and states of the root logger at import", "why_tests_cant": "handlers are global state that depends on the whole history and on what the application did with logging before the import", "anchors": ["rt1/__init__.py:start_log_to_file", "rt1/__init__.py:stop_log_to_file", "rt1/__init__.py:setup_logger"]}
{"id": "C151", "title": "The console shows progress messages unless told otherwise", "statement": "A message is shown exactly once on the console if its level is at least the level set last with set_log_handler_level (21, PROG., if it was never called), for all histories of calls; set_log_handler_level succeeds for the console and for all open log-files.", "quantifier": "for all histories of calls and states of the root logger at import", "why_tests_cant": "global state depending on the history", "anchors": ["rt1/__init__.py:setup_logger", "rt1/__init__.py:set_log_handler_level", "rt1/__init__.py:progress"]}
{"id": "C152", "title": "Lines of a log message are aligned", "statement": "In log-files and on the console a message is preceded by time, process and level, and the (non-blank) lines of a message of several lines start at the same column; messages of every level are shown.", "quantifier": "for all messages, process names and levels", "why_tests_cant": "layout for arbitrary texts", "anchors": ["rt1/__init__.py:WrappedFixedIndentingLog", "rt1/__init__.py:ColoredWrappedFixedIndentingLog", "rt1/__init__.py:_get_logger_formatter"]}
{"id": "C153", "title": "A run uses the modules of its config-file", "statement": "After RTprocess.setup every module__NAME entry of CONFIGFILES gives a module whose code is that of the listed file; with copy=True it is imported from a copy in the cfg folder of the run, and this copy is never changed by later set-ups or by editing the original, so that a repeated run uses the same code. A 'copy' entry in the section makes the modules be copied to that folder.", "quantifier": "for all config-files, folders, contents of files and histories of set-ups and edits", "why_tests_cant": "needs arbitrary sets of modules and histories of edits", "anchors": ["rt1/rtparse.py:RT1_configparser.get_module", "rt1/rtparse.py:RT1_configparser.get_all_modules", "rt1/rtprocess.py:RTprocess._copy_cfg_and_modules", "rt1/rtprocess.py:RTprocess.setup"]}
{"id": "C154", "title": "Importing the modules of a config-file does not disturb other modules", "statement": "get_all_modules changes sys.modules only under the names of the imported files; afterwards each of these names refers to the module of the run. No module that was imported before is replaced and a module whose import fails is not left in sys.modules.", "quantifier": "for all config-files, files and states of sys.modules", "why_tests_cant": "depends on what the process has imported before", "anchors": ["rt1/rtparse.py:RT1_configparser.get_module", "rt1/rtparse.py:RT1_configparser.get_all_modules"]}
{"id": "C155", "title": "Slopes and curvatures of a fit are the derivatives of its model", "statement": "Fits._calc_slope_curv returns, for the same parameters and in the units of the fit (dB or linear, sig0 or intensity), the first and second derivative of the value that _calc_model returns with respect to the incidence angle; with return_components also those of the surface- and the volume-part. It fails exactly when, and in the way that, _calc_model fails for these parameters.", "quantifier": "for all model definitions, parameter values, fixed values, units and incidence angles", "why_tests_cant": "an equality of derivatives for all models and parameter values", "anchors": ["rt1/rtfits.py:Fits._calc_slope_curv", "rt1/rtfits.py:Fits._calc_model"]}
{"id": "C156", "title": "Results of a fit do not depend on how many other fits are in use", "statement": "An evaluation of the model (calc, calc_model, slope, ...) of a Fits object uses omega and tau as given by the current definition and the passed parameters, whatever was done with this and with any number of other Fits objects before, although the properties of all objects share caches of limited size (functools.lru_cache, 128 entries).", "quantifier": "for all numbers of objects, definitions, parameters and histories of evaluations, accesses and assignments", "why_tests_cant": "depends on which entries were evicted by more than 128 objects", "anchors": ["rt1/rtfits.py:Fits.V", "rt1/rtfits.py:Fits._omega_func", "rt1/rtfits.py:Fits._tau_func", "rt1/rtfits.py:Fits.set_model", "rt1/rtfits.py:Fits._set_calc_values", "rt1/rtfits.py:Fits._clear_cache"]}
{"id": "C157", "title": "Loading a result-file by its name", "statement": "load_hdf(name) and load_nc(name) of a result open the file of this name (with the ending .h5 / .nc) in the results-folder; without a name they open the only file with this ending; load_cfg(name) reads the file of this name in the cfg-folder, and without a name the only .ini file. A name that does not exist is reported by an AssertionError that lists the available names.", "quantifier": "for all contents of the folder (files and directories) and all names", "why_tests_cant": "depends on the set of files in the folder: dots in names, directories with the ending, one or several files", "anchors": ["rt1/rtresults.py:RTresults._RT1_fitresult._get_results", "rt1/rtresults.py:RTresults._RT1_fitresult.load_hdf", "rt1/rtresults.py:RTresults._RT1_fitresult.load_nc", "rt1/rtresults.py:RTresults._RT1_fitresult.load_cfg"]}
{"id": "C158", "title": "load_fit reads the current fit_db.h5", "statement": "Loading a fit by its ID from a result returns the fit that is stored in the result's fit_db.h5 at that time, whatever was loaded, closed, re-scanned or re-written before.", "quantifier": "for all contents, IDs and sequences of loading, closing, re-scanning and re-writing of any number of results", "why_tests_cant": "depends on the history of an open file-handler that is cached for all results", "anchors": ["rt1/rtresults.py:RTresults._RT1_fitresult.fit_db", "rt1/rtresults.py:RTresults._RT1_fitresult._reset_fit_db_cache", "rt1/rtresults.py:RTresults._RT1_fitresult._load_fit_from_HDF", "rt1/rtresults.py:RTresults._RT1_fitresult.rescan"]}
{"id": "C159", "title": "The fit-object of a config-file", "statement": "RT1_configparser.get_fitobject() returns a Fits object with the settings of the file, or, if the file defines configurations, a MultiFits object with exactly these configurations, each of which has the settings (sig0, dB, int_Q, lambda_backend, verbose, ID, defdict, V, SRF, least-squares arguments) of its own configuration; the result is determined by the file, and entries that are not understood are reported.", "quantifier": "for all config-files, conversions of numbers and orders in which Python traverses a set", "why_tests_cant": "the order of a set of strings changes from one run of Python to the next (hash seed); configurations can override each other in any combination", "anchors": ["rt1/rtparse.py:RT1_configparser.get_fitobject", "rt1/rtparse.py:RT1_configparser.config_names", "rt1/rtfits.py:Fits.__init__", "rt1/rtfits.py:MultiFits.add_config"]}
{"id": "C160", "title": "All configurations of a MultiFits object use its dataset", "statement": "The dataset, auxiliary data, reader_arg and ID of every configuration of a MultiFits object are those that have been set last on the MultiFits object, in whatever order configurations were added and attributes were set.", "quantifier": "for all sequences of add_config, set_dataset, set_aux_data, set_reader_arg, set_ID and direct assignments on any number of MultiFits and Fits objects", "why_tests_cant": "depends on the history and on aliasing of fit objects", "anchors": ["rt1/rtfits.py:MultiFits.set_dataset", "rt1/rtfits.py:MultiFits.set_aux_data", "rt1/rtfits.py:MultiFits.set_reader_arg", "rt1/rtfits.py:MultiFits.set_ID", "rt1/rtfits.py:MultiFits.add_config", "rt1/rtfits.py:MultiFits.ID"]}
{"id": "C161", "title": "Tables of metrics list every metric", "statement": "metrics_table and the table beside scatterplot list every number of the (nested) dict of metrics once with its name, in the order of the dict and sub-dicts below their names, in aligned columns.", "quantifier": "for all nested dicts and printed numbers", "why_tests_cant": "over all nested dicts and lengths of names and numbers", "anchors": ["rt1/rtmetrics.py:RTmetrics.metrics_table", "rt1/rtmetrics.py:RTmetrics._metrics_table_dict_entry", "rt1/rtmetrics.py:RTmetrics._flatten_dictionary", "rt1/rtmetrics.py:RTmetrics.scatterplot"]}
{"id": "C162", "title": "A stored fit keeps the groups of its observations", "statement": "A fit that is stored in a HDF5-container and loaded again uses the same assignment of observations to parameter values (daily, monthly, 'manual', '30D + manual', ...) as the fit that was stored: with save_data=True the whole dataset, and with save_data=False (the default) the index and the '_dyn' columns that are needed are restored.", "quantifier": "for all datasets, definitions of parameters and options of the writer", "why_tests_cant": "depends on the combination of variabilities, on which intermediate frames are empty, and on exceptions that are swallowed", "anchors": ["rt1/rtfits.py:Fits._get_fit_to_hdf_dict", "rt1/_rtprocess_writer.py:RT1_processor.process", "rt1/rtresults.py:HDFaccessor", "rt1/rtfits.py:Fits.param_dyn_dict"]}
{"id": "C163", "title": "The interaction term uses the value of each parameter under its own name", "statement": "When a fit is evaluated (during the fit, for its result, with fit.calc, and after loading it), the interaction-contribution uses for every parameter the same value as the surface- and volume-contributions, whatever the order of the dictionaries.", "quantifier": "for all definitions of parameters, orders and values", "why_tests_cant": "arguments are passed by position: wrong values only show if the order of a dictionary differs from that of the definition and raise no error", "anchors": ["rt1/rt1.py:RT1._get_fnevals", "rt1/rt1.py:RT1.interaction", "rt1/rtfits.py:Fits._param_R_dict", "rt1/rtfits.py:Fits._set_calc_values", "rt1/rtfits.py:Fits.calc"]}
{"id": "C164", "title": "The coefficients of an RT1 object belong to its definition", "statement": "Every evaluation of the interaction-contribution of an RT1 object uses the fn-coefficients (and compiled functions) of its current V, SRF, geometry and parameter-names, or those that were passed in or assigned; pickling (copying) an RT1 object has no effect on its results.", "quantifier": "for all histories of evaluations, reading R.fn, pickling and assignments", "why_tests_cant": "cached attributes depend on the whole history of the object", "anchors": ["rt1/rt1.py:RT1.__getstate__", "rt1/rt1.py:RT1._get_fn", "rt1/rt1.py:RT1._set_fn", "rt1/rt1.py:RT1._get_fnevals", "rt1/rt1.py:RT1._set_fnevals", "rt1/rt1.py:RT1.calc"]}
{"id": "C165", "title": "The interactive analysis shows the measurements selected by its slider", "statement": "In the figure of fit.plot.printsig0analysis, after any history of moving the slider and zooming, the lines and the title show exactly the measurements (and dates) at the position of the slider, and every position that the slider offers can be shown.", "quantifier": "for all numbers of measurements, ranges and histories of slider-positions and zooms", "why_tests_cant": "the state of the widget depends on the whole history of interactions; no test moves a slider", "anchors": ["rt1/rtplots.py:plot.printsig0analysis"]}
{"id": "C166", "title": "Plots draw each measurement with its own estimate", "statement": "fit.plot.scatter and fit.plot.fit_timeseries combine each measurement with the estimate (and incidence-angle) of the same observation, for every grouping of the observations.", "quantifier": "for all datasets and groupings", "why_tests_cant": "values are combined by position or by date; wrong pairs only arise for interleaved groups and duplicated dates, and raise no error", "anchors": ["rt1/rtplots.py:plot.scatter", "rt1/rtplots.py:plot.fit_timeseries", "rt1/rtfits.py:Fits.calc_model"]}
{"id": "C167", "title": "Residuals of a fit are labelled with their own group or date", "statement": "fit.plot.intermediate_residuals shows, for grp='groups' and grp='dataset', the mean absolute residual of the observations of each group or date, labelled with this group or date.", "quantifier": "for all datasets, groupings and residuals", "why_tests_cant": "three different orders (dataset, groups, sorted keys) are combined by position; they agree for the usual examples", "anchors": ["rt1/rtplots.py:plot.intermediate_residuals", "rt1/rtfits.py:Fits.meandatetimes_group", "rt1/rtfits.py:Fits.index"]}
{"id": "C168", "title": "Each position of the analysis belongs to one date or group", "statement": "fit.plot.printsig0analysis shows, for each date (use_index='dataset') or group (use_index='groups'), the measurements of this date or group and the model calculated with its parameters; printfullt_0 only selects whether the full range is drawn.", "quantifier": "for all datasets, groupings and orders of the dates", "why_tests_cant": "labels, measurements and calculations are sorted by different rules and combined by position", "anchors": ["rt1/rtplots.py:plot.printsig0analysis", "rt1/rtfits.py:Fits.index", "rt1/rtfits.py:Fits.res_df"]}
{"id": "C169", "title": "The progress of a processing run is reported consistently", "statement": "While RTprocess.run_processing works on the tasks with any number of processes, each line of the progress-bar shows no more finished tasks than there are, failed tasks among the finished ones, a bar filled in proportion and a remaining time that is not negative; 'finished' appears only if no task is left, and it appears once all tasks are done, with the right number of failed tasks.", "quantifier": "for all task lists, numbers of workers and interleavings of workers, combiner, writer and the printing thread", "why_tests_cant": "the printing thread reads three shared counters one after the other while the combiner updates them; wrong lines depend on the interleaving", "anchors": ["rt1/_rtprocess_writer.py:RT1_processor.print_progress", "rt1/general_functions.py:update_progress"]}
{"id": "C170", "title": "Signals and errors reach the user during and after a processing run", "statement": "A signal (SIGINT, SIGTERM) during RTprocess.run_processing stops the run with SystemExit; errors of the setup and of the block are passed on unchanged; after the run, signals have their usual effect again.", "quantifier": "for all sequences of runs and signals, and all errors of the setup and of the block", "why_tests_cant": "handlers are process-wide state; the effect of a signal after a run depends on the history of the session", "anchors": ["rt1/_rtprocess_writer.py:RT1_processor.writer_pool", "rt1/_rtprocess_writer.py:RT1_processor.manual_shutdown", "rt1/_rtprocess_writer.py:RT1_processor.stop"]}
{"id": "C171", "title": "Lines and dates in the plots of results belong to their measurements", "statement": "fit.plot.results labels each line with the number of its own group; fit.plot.results and fit.plot.fit_errors draw each selected group at one of its own dates, with residuals that are not negative; fit.plot.single_results draws the selected groups with their own dates, selected by number or by date.", "quantifier": "for all datasets, groupings and selections", "why_tests_cant": "labels and dates are looked up by position in lists that have one entry per group only for the usual examples", "anchors": ["rt1/rtplots.py:plot.results", "rt1/rtplots.py:plot.fit_errors", "rt1/rtplots.py:plot.single_results", "rt1/rtfits.py:Fits.index"]}
{"id": "C172", "title": "The interactive analysis of a model shows the values of its sliders", "statement": "In fit.plot.analyzemodel, after any sequence of slider moves, clicks on buttons and edits of ranges, the curves are those of the current slider values and the shaded areas are those of the activated buttons with their current ranges; parameters without a slider keep their value; a button activates its own parameter; each fitted or auxiliary parameter has one slider that starts inside its range, at its mean fitted value.", "quantifier": "for all definitions of parameters, ranges, labels, fit results, and all finite sequences of user actions", "why_tests_cant": "the figure is a state changed by callbacks; shaded areas pile up or vanish depending on the history of actions", "anchors": ["rt1/rtplots.py:plot.analyzemodel"]}
{"id": "C173", "title": "The interaction term of the interactive analysis uses the slider values", "statement": "In fit.plot.analyzemodel with int_Q=True, each parameter of V and SRF enters the interaction contribution with the value of its own slider.", "quantifier": "for all models, definitions of parameters, orders of the definitions and slider values", "why_tests_cant": "values are handed over by position; whether positions agree depends on the order of the definitions", "anchors": ["rt1/rtplots.py:plot.analyzemodel", "rt1/rtfits.py:Fits._assignvals", "rt1/rt1.py:RT1.interaction"]}
{"id": "C174", "title": "The intermediate results of a fit are recorded and drawn", "statement": "fit.performfit(intermediate_results=True) records the parameters, residuals and jacobians of the evaluations of that fit, in order; fit.plot.intermediate_results draws one line per recorded value of each fitted parameter with its proper label; the progress-bar of the fit shows the number of evaluations and the limit actually used.", "quantifier": "for all sequences of evaluations, histories of fits of one object, numbers of parameters and of allowed evaluations", "why_tests_cant": "the record is appended to while the optimizer runs, and survives on the object into later fits", "anchors": ["rt1/rtfits.py:Fits.performfit", "rt1/rtfits.py:Fits._calc_jac", "rt1/rtplots.py:plot.intermediate_results", "rt1/general_functions.py:update_progress"]}
{"id": "C175", "title": "The report on the definition of a model is complete", "statement": "fit.model_definition (and the file model_definition.txt of a processing run) lists each fitted parameter with start value and boundaries, each constant with its value, each auxiliary dataset, each property of V and SRF and each keyword of the optimizer.", "quantifier": "for all definitions of parameters, properties of V and SRF and keywords", "why_tests_cant": "completeness of the two-column tables depends on the numbers and types of all entries", "anchors": ["rt1/rtfits.py:Fits._model_definition", "rt1/rtprocess.py:RTprocess.run_processing"]}
{"id": "C176", "title": "The accessor of a MultiFits object works on all configurations", "statement": "multi.accessor.<property> returns a dict with the value of each configuration; multi.accessor.<method>(...) returns a callback for each configuration that runs the method on its own fit with the given arguments, overridden by those passed to the callback; callbacks do not influence each other, and earlier calls do not influence later ones.", "quantifier": "for all sessions (objects created, loaded, configurations added) and all sequences of calls with any arguments", "why_tests_cant": "properties live on a class shared by all objects of a session, arguments are kept between calls", "anchors": ["rt1/rtfits.py:_MultiAccessors", "rt1/rtfits.py:MultiFits.accessor"]}
{"id": "C177", "title": "Stored tables are never torn apart", "statement": "Whatever the numbers of workers, combiners and writers and however they interleave, the container holds each table returned by a task in one piece and in its order; also if the run is interrupted, a table holds either all rows of a feature or none.", "quantifier": "for all task lists, results, settings and executions, including failures and signals at any point", "why_tests_cant": "the order in which rows arrive depends on the interleaving of the processes", "anchors": ["rt1/_rtprocess_writer.py:RT1_processor._combiner_process", "rt1/_rtprocess_writer.py:RT1_processor._combine_results", "rt1/_rtprocess_writer.py:RT1_processor._save_file_process"]}
{"id": "C178", "title": "After any number of runs each feature reads back as its task returned it", "statement": "After any sequence of complete runs on the same container, reading a table for a feature (by its number or its ID) returns exactly the rows its task returned, in their order, whatever else has been processed before, at the same time or later; the container holds nothing else.", "quantifier": "for all sequences of runs with any arguments, numbers of processes, settings and interleavings, all features and tables", "why_tests_cant": "combines the selection of features, the pipeline of processes and the paged reader over all histories", "anchors": ["rt1/_rtprocess_writer.py:RT1_processor.run_starmap", "rt1/_rtprocess_writer.py:RT1_processor._check_IDs", "rt1/rtresults.py:HDFaccessor._get_id"]}
{"id": "C179", "title": "Metrics describe the current dataset and results", "statement": "fit.metric.KEY1.KEY2.<metric> is computed from the current values of the two variables, whatever was fitted, assigned and accessed before, and although the metric object and its series are cached; each ordered pair of different variables has its keys and nothing else can be accessed.", "quantifier": "for all datasets, results and attributes and all finite histories of fits, assignments, accesses (also through kept metric objects) and evictions from the caches", "why_tests_cant": "staleness depends on the history of accesses and on evictions from caches shared by all objects", "anchors": ["rt1/rtfits.py:Fits.metric", "rt1/rtfits.py:Fits._clear_cache", "rt1/rtfits.py:Fits.__setattr__", "rt1/rtmetrics.py:_metric_keys", "rt1/rtmetrics.py:_RTmetrics1"]}
{"id": "C180", "title": "Interpolation to other dates is piecewise linear", "statement": "interpolate_to_index returns, for every given date between two neighbouring dates of the data, the value on the straight line between the two values, reproduces the data at their own dates, returns missing values exactly outside of the data, never leaves the range of the data and does not depend on the order of the rows; DataFrames are treated column by column; lists and arrays with data_index like a Series.", "quantifier": "for all data with distinct dates, all given dates", "why_tests_cant": "ranges over all data and dates", "anchors": ["rt1/general_functions.py:interpolate_to_index"]}
{"id": "C181", "title": "Every fit stored by processing runs can be loaded again", "statement": "After any number of processing runs, load_fit(ID) of the container returns, for every feature that was processed with success, a fit (or MultiFits object) with the ID, arguments, dataset, auxiliary data, reader_arg and results of the fit that was computed for this feature.", "quantifier": "for all sequences of runs, numbers of processes, interleavings, features and fits", "why_tests_cant": "ranges over all histories of a container and all interleavings of the processes", "anchors": ["rt1/rtfits.py:Fits._get_fit_to_hdf_dict", "rt1/rtfits.py:Fits._get_res_dict_df", "rt1/rtresults.py:HDFaccessor._load_fit", "rt1/_rtprocess_writer.py:RT1_processor._worker_process"]}
{"id": "C182", "title": "Worker processes have different names", "statement": "The worker processes of a run are called RTprocess-1, RTprocess-2, ... and no two of them have the same name (the names are shown in the log-messages).", "quantifier": "for all numbers of worker processes and all interleavings of their initializers", "why_tests_cant": "depends on the order in which the processes read and increment a shared counter", "anchors": ["rt1/rtprocess.py:RTprocess._initializer", "rt1/rtprocess.py:RTprocess.run_processing"]}
{"id": "C183", "title": "select shows the rows with their IDs", "statement": "datasets.X.select(where=...) returns the rows of the table that meet the condition in their order; with set_ID=True each row is labelled with the ID of the feature it belongs to.", "quantifier": "for all tables, conditions and assignments of numbers to IDs", "why_tests_cant": "ranges over all tables and IDs; the labels are exchanged via the levels of a MultiIndex", "anchors": ["rt1/rtresults.py:_subselector.select", "rt1/rtresults.py:HDFaccessor.__init__"]}
{"id": "C184", "title": "A selector of a table works as long as it is held", "statement": "A selector obtained from a HDFaccessor (acc.datasets.X) can be used until the accessor is closed, also in one expression such as load_hdf().datasets.X.select().", "quantifier": "for all sequences of deleting the accessor, runs of the garbage collector, closing and uses", "why_tests_cant": "depends on the time at which objects are deleted", "anchors": ["rt1/rtresults.py:_subselector", "rt1/rtresults.py:HDFaccessor.__del__", "rt1/rtresults.py:HDFaccessor.close"]}
{"id": "C185", "title": "The jacobian uses the derivatives of the current scattering functions", "statement": "After any sequence of assignments to SRF, V and param_dict of RT1 objects, evaluations of the jacobian and calls of _clear_cache, the entry of jacobian() for a parameter of param_dict is made from the derivatives of the scattering functions the object has at present.", "quantifier": "for all sequences of operations, objects, parameters and cache sizes", "why_tests_cant": "depends on the history of two caches that are shared by all objects of the class", "anchors": ["rt1/rt1.py:RT1._d_surface_dummy_lambda", "rt1/rt1.py:RT1._d_volume_dummy_lambda", "rt1/rt1.py:RT1._clear_cache", "rt1/rt1.py:RT1.jacobian"]}
{"id": "C186", "title": "Removing a dump-folder stops exactly the log-files inside", "statement": "When an existing dump-folder is removed before a new run, every log-file handler that writes into the 'cfg' folder of the dump-folder is closed and taken off the logger, and all other handlers stay in their order; the folders that exist after the setup are the dump-folder with its sub-folders.", "quantifier": "for all lists of handlers (log-files and others, in any order) and all folders", "why_tests_cant": "depends on the order of the handlers on the logger, since the loop removes from the list it iterates over", "anchors": ["rt1/rtprocess.py:RTprocess._remove_dumpfolder", "rt1/rtprocess.py:_make_folderstructure", "rt1/rtprocess.py:RTprocess.setup"]}
{"id": "C187", "title": "The fits that are exported are those of the folder that was asked for", "statement": "export_data_to_HDF(dumpfolder=n) exports the fits of the results n, without a name those of the only results there are (with several of them nothing is done); run_finaloutput exports the fits of the dump-folder of the configuration with its overrides; each call in the mode (use_dumps) it was called with and whatever was called before. The output is written into the dump-folder of the configuration.", "quantifier": "for all sequences of override_config, run_finaloutput and export_data_to_HDF on one object, all folders and modes", "why_tests_cant": "the folder is kept as an attribute of the object from one call to the next, and the calls themselves change the folders", "anchors": ["rt1/rtprocess.py:RTprocess.export_data_to_HDF", "rt1/rtprocess.py:RTprocess.run_finaloutput", "rt1/rtprocess.py:RTprocess._get_files", "rt1/rtprocess.py:RTprocess.setup", "rt1/rtprocess.py:RTprocess.override_config"]}
{"id": "C188", "title": "The model is continuous where the vegetation vanishes and saturates where it is dense", "statement": "For tau -> 0 the total returned by calc (with interaction term) tends to the backscatter of the bare surface, which is what calc returns for tau = 0 (where interaction() itself is NaN); for tau -> infinity it tends to bsf times the bare surface plus (1 - bsf) times an infinitely thick layer, with an error of at most K tau exp(-tau); the interaction term is at most of the order tau exp(-tau).", "quantifier": "for all geometries with angles below 90 degrees, scattering functions, parameters and optical depths", "why_tests_cant": "limits over all optical depths", "anchors": ["rt1/rt1.py:RT1.calc", "rt1/rt1.py:RT1.interaction", "rt1/rt1.py:RT1.surface", "rt1/rt1.py:RT1.volume", "rt1/rt1.py:RT1._calc_Fint_1", "rt1/rt1.py:RT1._calc_Fint_2"]}
{"id": "C189", "title": "A fit of data that the model itself produced can find the parameters", "statement": "If the measurements are the values of the model for some parameter values, the objective of the fit is zero at the vector of these values and nowhere negative; conversely (with nonzero weights) a vector with objective zero reproduces every measurement. With one fitted parameter (omega, tau, NormBRDF or bsf; linear or dB, sigma0 or intensity; model without interaction term), it is the only such vector whenever each group of observations contains one that reacts to the parameter. For tau and bsf this fails in scenes where an infinitely thick canopy is as bright as the soil: every optical depth then has objective zero.", "quantifier": "for all datasets, groupings of the observations, weights, scenes and parameter values", "why_tests_cant": "uniqueness over all vectors of real numbers", "anchors": ["rt1/rtfits.py:Fits.performfit", "rt1/rtfits.py:Fits._calc_model", "rt1/rtfits.py:Fits._calc_res", "rt1/rt1.py:RT1.calc", "rt1/rt1.py:RT1.surface", "rt1/rt1.py:RT1.volume"]}
{"id": "C190", "title": "Which measurements one parameter can explain, and that its best value is unique", "statement": "The modelled backscatter (without interaction term) lies between that of the bare surface and that of an infinitely thick layer, and a growing tau moves it from the former towards the latter. A value can be reached by some tau >= 0 exactly if it lies between the bare surface (included) and the limit of dense vegetation (excluded), and by omega, NormBRDF or bsf in an interval exactly if it lies between the values at the ends of the interval. For a parameter with one value per measurement (omega, tau, NormBRDF or bsf, linear or dB, sigma0 or intensity) there is exactly one best fit within the bounds, and it reproduces the measurement whenever this lies between the model values at the bounds. In linear units omega, NormBRDF and bsf have at most one best fit for any grouping of the measurements.", "quantifier": "for all scenes that react to the parameter, measurements, bounds, weights and (last claim) groupings", "why_tests_cant": "existence and uniqueness of minima over all real vectors within the bounds", "anchors": ["rt1/rtfits.py:Fits.performfit", "rt1/rt1.py:RT1.calc", "rt1/rt1.py:RT1.surface", "rt1/rt1.py:RT1.volume"]}
{"id": "C191", "title": "The final output of a feature has the configurations that are asked for", "statement": "run_finaloutput(use_config=..., postprocess=...) gives for each readable stored result one entry per configuration asked for (all of them for None, exactly the listed ones for a list), each the return of the postprocess function for the fit with this name, plus the reader_arg; a result with a single fit gives its own configuration (or 'default') whatever is asked for; use_config='from_postprocess' gives the return of the given function itself. A function that fails for one configuration asked for fails for the feature. The coefficients of the interaction-term a function works with are those of the parent-configuration with the same name. Exceptions to what is documented: a configuration given as a string is iterated letter by letter and ends in a KeyError if the parent is a MultiFits object; 'from_postprocess' is ignored for the function of the processing class; the parameter of the function has to be called 'fit' (only) for MultiFits objects; a stored result having a configuration that the parent does not have is left out even if this configuration is not asked for.", "quantifier": "for all parents, stored results, postprocess functions, use_config arguments", "why_tests_cant": "all combinations of parents, stored files and arguments", "anchors": ["rt1/rtprocess.py:RTprocess._run_finalout", "rt1/rtprocess.py:RTprocess._finalout_reader", "rt1/rtprocess.py:RTprocess._run_postprocess", "rt1/rtfits.py:MultiFits.apply"]}
{"id": "C192", "title": "Which pairs of parameters a fit can tell apart", "statement": "For noise-free data of the model (without interaction term), two parameters fitted with the same groups have one solution (cost zero) exactly if in each group the observations with a weight determine the pair; with different groups it suffices that the observations sharing both values do. omega and NormBRDF are determined exactly if two observations differ in the ratio of volume and surface contribution (two incidence angles suffice for a scene that scatters alike in both); tau with omega (no surface), with bsf (known soil and canopy) and with NormBRDF (no volume contribution, no bare soil) exactly if two observations differ in the path length 1/cos(t_0)+1/cos(t_ex); a single geometry never determines a pair. It is natural to expect that two different geometries always suffice for two parameters; with a bare-soil fraction between 0 and 1 they do not for tau and NormBRDF, but three different path lengths do. What is determined does not depend on the units (linear, dB, sigma0 or intensity).", "quantifier": "for all scenes, numbers of observations, groupings, weights, parameter values", "why_tests_cant": "uniqueness of a minimum over all real parameter values, for all scenes and groupings", "anchors": ["rt1/rtfits.py:Fits.performfit", "rt1/rtfits.py:Fits._calc_model", "rt1/rt1.py:RT1.calc", "rt1/rt1.py:RT1.surface", "rt1/rt1.py:RT1.volume"]}
{"id": "C193", "title": "Values of Legendre expansions", "statement": "X._eval_legpoly(t_0, t_s, p_0, p_s, geometry) evaluates the Legendre expansion for the given directions: for volumes it is the value of the represented phase function for the incidence direction pi - t_0 and the direction s, for every accepted geometry (\"mono\", or four characters v and f; everything else is rejected); for surfaces in monostatic geometry the value between s and the direction back to the sensor. For surfaces in all other geometries the value should be the one between the two given directions; it is the one between the direction s and itself: the sum of the coefficients for the default scattering angle, whatever the angles.", "quantifier": "for all coefficients, weights of the scattering angle, geometries and angles (numbers)", "why_tests_cant": "the unit test uses angles 'set in a way that COS_THETA = 1'; it passes for all angles, so it cannot see the substitution", "anchors": ["rt1/scatter.py:Scatter._eval_legpoly", "rt1/surface.py:Surface.legexpansion", "rt1/volume.py:Volume.legexpansion"]}
{"id": "C194", "title": "Errors of the data and of the parameters", "statement": "In linear units and for a parameter that enters linearly (omega, NormBRDF, bsf) the best fit within the bounds exists and is, group by group, the weighted linear regression of the data of the group moved to the nearest value within the bounds. If the data are the values of the model for parameters within the bounds plus errors, the error of a fitted parameter is at most the weighted mean of the errors of its own group divided by the gain of the model, in particular at most eps/beta for errors up to eps and gains of at least beta; measurements of other groups have no influence. For repeated measurements of one scene the fitted model explains their weighted mean. For one measurement (any of the four parameters, any units) the fitted value of the model never moves more than the measurement.", "quantifier": "for all series, groups, weights, bounds, errors and scenes that are sensitive to the parameter", "why_tests_cant": "the tests fit noise-free or fixed example data; how errors propagate is a statement about all data and needs the optimum, which the tests only approximate by a solver", "anchors": ["rt1/rtfits.py:Fits._calc_model", "rt1/rtfits.py:Fits.performfit", "rt1/rt1.py:RT1.calc"]}
{"id": "C195", "title": "The log-file of a run holds all messages of the run", "statement": "When run_processing or run_finaloutput returns, the log-file RT1_process(date).log in the dump-folder holds every message with at least the level logfile_level that the main process, the workers, the combiners and the writers have logged, once and in the order of logging, in every interleaving of the processes with the listener; at all times it holds a beginning of this list, and the listener ends after it was told to, whatever the other processes do. Messages of pool workers below level 10 are missing even if logfile_level is smaller, and after an interruption (ctrl+c, which also ends the listener) nothing is written any more.", "quantifier": "for all levels, sequences of messages of any number of processes, and interleavings with the listener", "why_tests_cant": "the order in which processes put messages and the listener takes them is not under the control of a test", "anchors": ["rt1/rtprocess.py:RTprocess._listener_process", "rt1/rtprocess.py:RTprocess._worker_configurer", "rt1/rtprocess.py:RTprocess._initializer", "rt1/rtprocess.py:RTprocess.run_processing"]}
{"id": "C196", "title": "A scene does not reflect more than it receives (surface and volume contribution)", "statement": "For every incidence direction, the power that leaves the scene into the upper hemisphere (integral of cos(t_ex) times the sum of surface and volume contribution) is at most I0 cos(t_0) times: on bare soil the directional-hemispherical reflectance NormBRDF r of the surface; elsewhere the mean of NormBRDF r and of omega times the part u of the scattered radiation that goes upwards, weighted with the part of the beam that reaches the surface and the part that the layer removes. It is therefore at most I0 cos(t_0) times the larger of NormBRDF r and omega u. Without layer, or on bare soil, the bound is attained.", "quantifier": "for all nonnegative phase functions and BRDFs, I0, omega, tau, NormBRDF >= 0, bsf in [0, 1] and incidence directions above the horizon", "why_tests_cant": "the statement is about an integral over a continuum of directions, for arbitrary functions", "anchors": ["rt1/rt1.py:RT1.calc", "rt1/rt1.py:RT1.surface", "rt1/rt1.py:RT1.volume"]}
{"id": "C197", "title": "A scene does not reflect more than it receives (all contributions)", "statement": "The power that leaves the scene, with the interaction contribution, is well defined and at most I0 cos(t_0) times: on bare soil NormBRDF r; elsewhere (1 - exp(-tau/cos t_0)) omega (u + a d) + exp(-tau/cos t_0) NormBRDF r, with the parts u and d of the beam that the layer scatters upwards and downwards and the largest reflectance a of the surface. If the surface never reflects more than it receives and the layer never scatters more than it removes, the scene does not send back more than arrives. The first-order interaction term adds no energy although it neglects the second reflections. Holds for what calc computes from Legendre expansions that are nowhere negative.", "quantifier": "for all nonnegative phase functions and reciprocal BRDFs that are finite sums of products of continuous functions of the two directions (all Legendre expansions are), all parameters in their physical range, all incidence directions", "why_tests_cant": "the statement is about a double integral over all pairs of directions, for arbitrary functions", "anchors": ["rt1/rt1.py:RT1.calc", "rt1/rt1.py:RT1.interaction", "rt1/rt1.py:RT1._calc_Fint_1", "rt1/rt1.py:RT1._calc_Fint_2"]}
{"id": "C198", "title": "Phase functions are normalised for every incidence direction", "statement": "Integrated over all scattering directions, the Rayleigh, Henyey-Greenstein and HGRayleigh phase functions give 1, and a linear combination gives the sum of its weighting factors, whatever the incidence direction, if the weights a of every element are 1 or -1 (the default is [-1, 1, 1]). The parts scattered upwards and downwards add up to this total. With such a layer (weighting factors nonnegative with sum at most 1, omega at most 1) over a surface that reflects at most what it receives, surface and volume contribution together send back at most I0 cos(t_0). For other weights in [-1, 1] the total is 2 pi times the integral of the function over the scattering-angle cosine stretched by the length of the weighted incidence direction; for Rayleigh it is 3/4 + length^2/4, which is 1 only if the length is 1: with other weights the documented normalisation depends on the incidence direction.", "quantifier": "for all incidence directions, asymmetry parameters in (-1, 1), weights, linear combinations (and all twice continuously differentiable functions of the scattering angle)", "why_tests_cant": "integral over the sphere for a continuum of incidence directions and parameters", "anchors": ["rt1/volume.py:Volume.scat_angle", "rt1/volume.py:LinCombV", "rt1/volume.py:Rayleigh", "rt1/volume.py:HenyeyGreenstein", "rt1/volume.py:HGRayleigh"]}
{"id": "C199", "title": "Results depend neither on earlier calculations nor on fits that share their functions", "statement": "The contributions returned by fit.calc(param, inc, fixed_param) are the same whatever was calculated before with this fit and whichever fits with the same interaction term and the same parameters in the same order have shared their functions with it (reinit_object, processing, export). If the values are given in the order of the model (as all dicts of the optimiser are), all contributions belong to the given names; without interaction contribution, and for surface and volume contribution, this holds for every order; with another order the interaction contribution is the one of the names of the model with the given values in turn (C163), and another number of values is a TypeError.", "quantifier": "for all fits (start values, auxiliary values, excluded names, expressions), all dicts of given values, and all histories of earlier calculations and shared functions", "why_tests_cant": "orders, numbers of parameters and histories are unbounded; a wrong order gives plausible numbers without any error", "anchors": ["rt1/rtfits.py:Fits.calc", "rt1/rtfits.py:Fits._set_calc_values", "rt1/rtfits.py:Fits._param_R_dict", "rt1/rtfits.py:Fits.R", "rt1/rt1.py:RT1._set_fnevals", "rt1/rt1.py:RT1._calc_Fint_1", "rt1/rt1.py:RT1._calc_Fint_2"]}
{"id": "C200", "title": "The computed contributions are accurate in double precision", "statement": "RT1.surface(), RT1.volume() and their sum, evaluated operation by operation in IEEE double precision as the code writes them, agree with the exact contributions up to a relative error that is the accuracy of np.exp, np.cos and of the scattering function plus 7 (surface) or 9 (volume) roundings, plus the optical path times the accuracy of the exponent; for the volume the error of np.exp counts divided by the optical path. E.g. below 2^-39 for the surface if np.exp and np.cos are accurate to 4 roundings, the BRDF to 1000, and the optical path is at most 100.", "quantifier": "for all geometries in the upper hemisphere, all non-negative intensities, albedos, optical depths, scattering values, bare-soil fractions in [0,1], and all implementations of np.exp and np.cos with the stated accuracy", "why_tests_cant": "rounding errors depend on every bit of every input; a test has no exact reference", "anchors": ["rt1/rt1.py:RT1.surface", "rt1/rt1.py:RT1.volume", "rt1/rt1.py:RT1.calc"]}
{"id": "C201", "title": "The volume contribution of thin layers keeps its relative accuracy", "statement": "RT1.volume() evaluated in double precision has a small relative error for every positive optical depth.", "quantifier": "for all positive optical depths and all geometries", "why_tests_cant": "thin layers give results that look like zero within absolute tolerances of tests", "anchors": ["rt1/rt1.py:RT1.volume"]}
{"id": "C202", "title": "Signs, monotonicity and limits hold for the computed numbers, not only for the exact ones", "statement": "In double precision: surface(), volume() and their sum are never negative; the sum is not below its parts; a larger optical depth never increases surface() and never decreases volume(); for bsf=1, and for tau=0, volume() is exactly 0; surface() is exactly the unattenuated one for bsf=1, and for tau=0 with bsf=0 (for tau=0 and other bsf up to the roundings of C200, as (1-bsf) I + bsf I is rounded).", "quantifier": "for all inputs in the physical ranges, with np.exp monotone and in [0,1] for arguments that are not positive; no condition on under- or overflow of intermediate results", "why_tests_cant": "violations would appear only for particular roundings", "anchors": ["rt1/rt1.py:RT1.surface", "rt1/rt1.py:RT1.volume", "rt1/rt1.py:RT1.calc"]}
{"id": "C203", "title": "Parameters given to a scattering function take effect", "statement": "Constructing a surface or volume scattering function succeeds exactly if Python can bind the arguments and the values pass the documented checks; the object then has every given value (by position or keyword) as attribute and the default otherwise; a name that is not a parameter is rejected; every documented parameter has an effect.", "quantifier": "for all classes, positional and keyword arguments and values", "why_tests_cant": "any spelling of a keyword and any type of value can be given", "anchors": ["rt1/surface.py:Surface.__init__", "rt1/surface.py:CosineLobe.__init__", "rt1/surface.py:HenyeyGreenstein.__init__", "rt1/surface.py:HG_nadirnorm.__init__", "rt1/surface.py:Isotropic.__init__", "rt1/volume.py:Volume.__init__", "rt1/volume.py:Rayleigh.__init__", "rt1/volume.py:HenyeyGreenstein.__init__", "rt1/volume.py:HGRayleigh.__init__"]}
{"id": "C204", "title": "Scattering functions do not share their settings", "statement": "The scattering-angle coefficients a of one object are not affected by creating, editing or assigning those of another one, and objects made without a have the documented default at any time.", "quantifier": "for all sessions: sequences of creating lists and objects, changing lists in place, assigning lists", "why_tests_cant": "each test starts with fresh defaults; the effect depends on the history of the process", "anchors": ["rt1/surface.py:CosineLobe.__init__", "rt1/surface.py:HenyeyGreenstein.__init__", "rt1/surface.py:HG_nadirnorm.__init__", "rt1/volume.py:HenyeyGreenstein.__init__", "rt1/volume.py:HGRayleigh.__init__"]}
{"id": "C205", "title": "What is shown of a scattering function recreates it", "statement": "Calling the class with the values shown by __repr__ or stored by init_dict gives an object with the same attributes.", "quantifier": "for all objects and all later states of the process", "why_tests_cant": "attributes can be assigned after construction", "anchors": ["rt1/surface.py:Surface.init_dict", "rt1/surface.py:Surface.__repr__", "rt1/volume.py:Volume.init_dict", "rt1/volume.py:Volume.__repr__"]}
{"id": "C206", "title": "A scattering function is evaluated with its current parameters", "statement": "brdf(), p(), their derivatives and legexpansion() of a scattering function use the current values of its attributes t (or i), a and ncoefs, whatever was evaluated and assigned before.", "quantifier": "for all sequences of evaluations and assignments of any number of objects", "why_tests_cant": "each test evaluates fresh objects; the results depend on the order of evaluations and assignments and on evictions from caches that all objects share", "anchors": ["rt1/surface.py:Surface._lambda_func", "rt1/surface.py:Surface.brdf", "rt1/surface.py:Surface.legexpansion", "rt1/surface.py:Surface.brdf_theta_diff", "rt1/surface.py:HenyeyGreenstein._func", "rt1/surface.py:HenyeyGreenstein.legcoefs", "rt1/volume.py:Volume._lambda_func", "rt1/volume.py:Volume.p", "rt1/volume.py:HenyeyGreenstein._func_numeric", "rt1/volume.py:HGRayleigh._func"]}
{"id": "C207", "title": "Value, derivative and Legendre expansion of a scattering function belong together", "statement": "At any time, the values, the derivatives and the Legendre expansion that a scattering function object provides belong to the same parameters, so that the contributions of first order, the slopes and the interaction contribution of a model describe the same function.", "quantifier": "for all sequences of evaluations and assignments of any number of objects", "why_tests_cant": "each test evaluates fresh objects", "anchors": ["rt1/surface.py:Surface._lambda_func", "rt1/surface.py:Surface.brdf", "rt1/surface.py:Surface.legexpansion", "rt1/surface.py:Surface.brdf_theta_diff", "rt1/surface.py:HenyeyGreenstein._func", "rt1/surface.py:HenyeyGreenstein.legcoefs", "rt1/volume.py:Volume._lambda_func", "rt1/volume.py:Volume.p", "rt1/volume.py:HenyeyGreenstein._func_numeric", "rt1/volume.py:HGRayleigh._func"]}
{"id": "C208", "title": "Every processed feature has its own dump-file", "statement": "With dump_fit, the fit of every feature is dumped to dumps/<ID>.dump in the folder of the processing run and its results are stored; no file of another feature or outside of this folder is changed, and loading by the ID gives this fit. Without dump_fit no file is written and the same results are stored.", "quantifier": "for all lists of reader arguments with any IDs, readers, fits, folders and existing files", "why_tests_cant": "tests use a few plain IDs; IDs are arbitrary objects that are converted to text and used as relative or absolute paths", "anchors": ["rt1/rtprocess.py:RTprocess._evalfunc", "rt1/processing_config.py:rt1_processing_config.__init__", "rt1/processing_config.py:rt1_processing_config.get_names_ids", "rt1/processing_config.py:rt1_processing_config.exceptfunc", "rt1/rtfits.py:Fits.dump", "rt1/rtfits.py:Fits._get_fit_to_hdf_dict", "rt1/rtresults.py:RTresults"]}
{"id": "C209", "title": "A feature that was already processed is taken from its dump-file", "statement": "If the reader raises rt1_file_already_exists, the results of the existing dump-file are stored for this feature as if it had been fitted again, without changing any file; if there is no such file the feature is skipped.", "quantifier": "for all reader arguments, readers, exceptions and files", "why_tests_cant": "tests check that the file is loaded for one feature, not under which index and with which options its results are stored", "anchors": ["rt1/rtprocess.py:RTprocess._evalfunc", "rt1/processing_config.py:rt1_processing_config.__init__", "rt1/processing_config.py:rt1_processing_config.get_names_ids", "rt1/processing_config.py:rt1_processing_config.exceptfunc", "rt1/rtfits.py:Fits.dump", "rt1/rtfits.py:Fits._get_fit_to_hdf_dict"]}
{"id": "C210", "title": "Process-specs are attributes of the processing class", "statement": "Every process-spec is available as attribute of the processing class with its value, the paths of dumps, results and cfg are those below save_path/dumpfolder (None if not given), and the functions of the class remain callable.", "quantifier": "for all process-specs (names and values) and all classes derived from rt1_processing_config", "why_tests_cant": "any name can be used for a process-spec, also the names of functions and paths", "anchors": ["rt1/processing_config.py:rt1_processing_config.__init__", "rt1/rtprocess.py:RTprocess"]}
{"id": "C211", "title": "Only admissible parameters are accepted by RT1", "statement": "An RT1 object can be created exactly if geometry is a valid string of four characters, volume and surface are given, and omega, tau and NormBRDF are expressions or non-negative numbers (arrays without negative elements); otherwise an error is raised.", "quantifier": "for all geometries, numbers, arrays and expressions", "why_tests_cant": "tests create objects with a few valid values", "anchors": ["rt1/rt1.py:RT1.__init__"]}
{"id": "C212", "title": "Surface and volume contributions of arrays are evaluated element by element", "statement": "surface() and volume() accept arrays of any shapes for angles and parameters exactly if numpy can broadcast them, the result has the common shape, and each element is the contribution for the corresponding elements of all angles and parameters.", "quantifier": "for all numbers of axes and shapes of all angles and parameters, all scattering functions, all elements", "why_tests_cant": "shapes are unbounded; tests compare a few one-dimensional arrays", "anchors": ["rt1/rt1.py:RT1.surface", "rt1/rt1.py:RT1.volume", "rt1/rt1.py:RT1.t_0", "rt1/rt1.py:RT1.t_ex", "rt1/surface.py:Surface.brdf", "rt1/volume.py:Volume.p"]}
{"id": "C213", "title": "The interaction term of arrays is evaluated element by element", "statement": "Whenever the angles and parameters can be broadcast, the factors of the interaction term have the common shape and each element is the factor for the corresponding elements.", "quantifier": "for all shapes of the angles and parameters, all coefficients, all elements", "why_tests_cant": "shapes are unbounded; the axis of the coefficients is added to arrays with different numbers of axes", "anchors": ["rt1/rt1.py:RT1.interaction", "rt1/rt1.py:RT1._calc_Fint_1", "rt1/rt1.py:RT1._calc_Fint_2", "rt1/rt1.py:RT1._S2_mu", "rt1/rt1.py:RT1._mu_0_x", "rt1/rt1.py:RT1._mu_ex_x"]}
{"id": "C214", "title": "calc() returns all contributions for every incidence angle", "statement": "Without interaction term, calc() returns total, surface and volume contribution with an element for each incidence angle; the total is their sum, and the volume contribution is zero where there is no vegetation.", "quantifier": "for all shapes of the angles and parameters, tau given as number or array", "why_tests_cant": "the shape of the result depends on type and value of tau", "anchors": ["rt1/rt1.py:RT1.calc"]}
{"id": "C215", "title": "Slopes and curvatures of arrays are evaluated element by element", "statement": "surface_slope, surface_curv, volume_slope, volume_curv, tot_slope and tot_curv accept arrays of any shapes for angles and parameters exactly if the incident azimuth has a single value and numpy can broadcast what they depend on; the result has the common shape and each element is the slope or curvature (linear or dB, intensity or sigma_0) for the corresponding elements of all angles and parameters. Several azimuth values are an AssertionError.", "quantifier": "for all numbers of axes and shapes of all angles and parameters, all scattering functions with their derivatives, all units, all elements", "why_tests_cant": "shapes are unbounded; tests compare a few one-dimensional arrays", "anchors": ["rt1/rt1.py:RT1.surface_slope", "rt1/rt1.py:RT1.surface_curv", "rt1/rt1.py:RT1.volume_slope", "rt1/rt1.py:RT1.volume_curv", "rt1/rt1.py:RT1.tot_slope", "rt1/rt1.py:RT1.tot_curv", "rt1/surface.py:Surface.brdf_theta_diff", "rt1/volume.py:Volume.p_theta_diff"]}
{"id": "C216", "title": "The jacobian of arrays is evaluated element by element", "statement": "jacobian() with arrays of any shapes returns one array per requested parameter, exactly if all names are known and numpy can broadcast what they depend on; each array has the common shape of what the entry depends on, and each element is the entry for the corresponding elements of all angles and parameters. Unknown names are an AssertionError.", "quantifier": "for all shapes of all angles and parameters, all lists of parameter names, all units, all elements", "why_tests_cant": "shapes and lists of parameters are unbounded", "anchors": ["rt1/rt1.py:RT1.jacobian", "rt1/rt1.py:RT1._dsurface_dbsf", "rt1/rt1.py:RT1._dvolume_dtau", "rt1/rt1.py:RT1._d_surface_ddummy", "rt1/rt1.py:RT1._d_volume_ddummy"]}
{"id": "C217", "title": "The interaction term of arrays is evaluated element by element", "statement": "interaction() with arrays of any shapes that numpy can broadcast has their common shape, and each element is the interaction term of a scalar object with the corresponding elements of I0, omega, tau, NormBRDF, bsf, the angles and all parameters, provided that the coefficients depend on an angle or a parameter and no array has more axes than the zenith angles (C213 shows that neither condition can be dropped). Angles or parameters that cannot be broadcast are a ValueError.", "quantifier": "for all numbers of axes and shapes of all angles and parameters, all scattering functions, geometries and expansion orders, all elements, including infinities", "why_tests_cant": "shapes, expansion orders and scattering functions are unbounded; the factors carry an additional axis for the coefficients that has to stay aligned with every other axis", "anchors": ["rt1/rt1.py:RT1.interaction", "rt1/rt1.py:RT1._calc_Fint_1", "rt1/rt1.py:RT1._calc_Fint_2", "rt1/rt1.py:RT1._fnevals"]}
{"id": "C218", "title": "Dumped MultiFits objects are loaded with all configurations", "statement": "rtfits.load() of a dumped MultiFits object (of the current or an older version) gives an object with the same configurations in the same order, each with the dataset, auxiliary data and reader-arg of the MultiFits object, its name and its ID, and the object can be used like the dumped one: configurations can be added, it can be loaded without configurations, and unpickling it gives the same as load().", "quantifier": "for all dumps: all numbers and names of configurations, all datasets, IDs and file names, both versions of the container", "why_tests_cant": "dumps of older versions cannot be created with the current code; number and names of configurations are unbounded", "anchors": ["rt1/rtfits.py:load", "rt1/rtfits.py:_FitContainer.__setstate__", "rt1/rtfits.py:_FitContainer.__iter__", "rt1/rtfits.py:_FitContainer.__getitem__", "rt1/rtfits.py:MultiFits.__setstate__", "rt1/rtfits.py:MultiFits.add_config", "rt1/rtfits.py:MultiFits.ID"]}
{"id": "C219", "title": "The accessor of a MultiFits object gives the attributes of all configurations", "statement": "MultiFits.accessor.X gives the values of X for all configurations if X is a property of Fits or an attribute of the fits (also the results), and callbacks for all configurations if X is a function of Fits, for created and for loaded objects.", "quantifier": "for all sequences of creating and loading MultiFits objects in a process, all classes Fits (names and kinds), all configurations and attributes", "why_tests_cant": "the result depends on what the Python process has done before (properties are set on the class by the constructor); a test that creates an object first can never see the difference", "anchors": ["rt1/rtfits.py:_MultiAccessors.__init__", "rt1/rtfits.py:_MultiAccessors._getit", "rt1/rtfits.py:_MultiAccessors._applyit", "rt1/rtfits.py:_FitContainer.__setstate__"]}
{"id": "C220", "title": "get_nids_iter returns the IDs that are asked for", "statement": "get_nids_iter(nids, start) returns pages of nids IDs from start on (from the end if start is negative) if nids is a number, and the rows of exactly the given IDs if nids is a list or array of IDs.", "quantifier": "for all tables, all numbers, lists and arrays of IDs, all starts", "why_tests_cant": "the set of tables and of IDs is unbounded; the wrong results depend on the relation between the number of an ID and the number of IDs", "anchors": ["rt1/rtresults.py:HDFaccessor._get_nids_iter", "rt1/rtresults.py:HDFaccessor._get_vals_with_IDs"]}
{"id": "C221", "title": "Loading fits does not change how IDs are shown", "statement": "Tables show the names of the IDs exactly if set_ID was last set to True (constructor or assignment); loading fits in between, also between the pages of a generator and also if loading fails, never changes this, and load_fit itself always works with numbers.", "quantifier": "for all sequences of assignments, reads and loads, all outcomes of the loads", "why_tests_cant": "the flag is shared between all readers of an accessor; sequences and points of failure are unbounded", "anchors": ["rt1/rtresults.py:HDFaccessor._numeric_ID", "rt1/rtresults.py:HDFaccessor._load_fit", "rt1/rtresults.py:_subselector.select", "rt1/rtresults.py:HDFaccessor._get_nids_iter"]}
{"id": "C222", "title": "Assigning what defines a fit empties every cache; warnings are logged once until then", "statement": "Assigning sig0, dB, dataset, defdict or set_V_SRF of any Fits object, and performfit(clear_cache=True) of any Fits object, leaves no cached result of any function decorated with lru_cache in class Fits, for any object and whatever was computed (or failed) before. Assigning any other attribute changes no cache. Until the caches are emptied, the warning that the groups of an interpolated parameter are not monotonic, or that it has less than two values, is logged exactly once per object and parameter, as long as at most 128 different ones are due; after that the log continues as in a new session. With more than that a warning is logged again.", "quantifier": "all sessions (any sequence of reads of cached properties, calls of set_model and _assignvals with any outcome, assignments and fits, of any number of Fits objects), any size of the caches from one on", "why_tests_cant": "The guard that skips the clearing counts the entries of properties only; that it never skips the clearing of the functions is an invariant over all sessions.", "anchors": ["rt1/rtfits.py:Fits.__setattr__", "rt1/rtfits.py:Fits._clear_cache", "rt1/rtfits.py:Fits._cached_props", "rt1/rtfits.py:Fits._cached_arg_number", "rt1/rtfits.py:Fits.set_model", "rt1/rtfits.py:Fits._assignvals_log_message", "rt1/rtfits.py:Fits._assignvals"]}
{"id": "C223", "title": "fit_timeseries draws the selected components of the selected dates", "statement": "plot.fit_timeseries draws one line for each of the components that are asked for (and exist), in a fixed colour, with exactly the observations of the selected years and months in the order of time; alongside (printinc=True) it draws for each of these components one point per selected observation over its incidence-angle in degrees, and one line per date through the points of this date; params are drawn with the values of the selected years and months; the legend names every component once with its own line and the axis is labelled with the units. There is a figure exactly if all params are columns of res_df and, for printinc=True with any component, at least one observation is selected (otherwise StopIteration).", "quantifier": "all tables of observations (any number of observations per date, any order), all flags, years, months and lists of parameters", "why_tests_cant": "All combinations of flags and selections with any multiplicity of dates; the padding of the arrays must not add points.", "anchors": ["rt1/rtplots.py:plot.fit_timeseries", "rt1/rtfits.py:Fits.calc_model", "rt1/general_functions.py:rectangularize"]}
{"id": "C224", "title": "intermediate_residuals shows each iteration and bin at its place", "statement": "plot.intermediate_residuals shows the iterations selected by iter_slice (with python's rules for slices, in their order) with their proper numbers, and for each of them the absolute mean of the residuals of each bin, group, date or period; a bin contains its upper edge (the first one both edges), every observation counts in at most one bin and empty bins are masked; in the 3D plot exactly the columns with values whose neighbours are all empty are drawn as points; in the 2D image every value is at the position of its iteration and its bin. There is a figure for every recorded fit.", "quantifier": "for all recorded residuals, slices (any bounds and steps), groupings, values and bin-edges", "why_tests_cant": "All slices and all distributions of values over bins; positions in an image are only compared by eye.", "anchors": ["rt1/rtplots.py:plot.intermediate_residuals", "rt1/general_functions.py:pairwise"]}
{"id": "C225", "title": "hemreflect uses the value of NormBRDF", "statement": "hemreflect evaluates the hemispherical reflectance of NormBRDF * brdf with the value of NormBRDF for the given param_dict, in the same way for hemreflect(R=R) and for SRF.hemreflect(); for several values of NormBRDF it gives one row (and one line in the plot) for each of them, and all lines are within the range of the axis. A missing parameter, or neither R nor SRF, raises an exception.", "quantifier": "for all BRDFs, ranges of angles, numbers of integration points, NormBRDF (numbers, symbolic expressions, arrays) and parameters", "why_tests_cant": "Any expression and parameter values; the range of the axis depends on all curves.", "anchors": ["rt1/rtplots.py:hemreflect", "rt1/surface.py:Surface.__init__"]}
{"id": "C226", "title": "The thread that prints the progress ends with the processing", "statement": "While results are processed, the print thread of run_starmap prints a line at each of its ticks and does not end. Once the processing is stopped (should_stop is set and the queue is empty, or _stop is set) it prints at most two more lines and ends at the latest after its second tick, whatever else happens, and it does not end with an exception.", "quantifier": "for all interleavings of the ticks of the thread with results put into and taken from the queue and with the steps of stop()", "why_tests_cant": "Depends on the interleaving of a timer with several processes and with the shutdown of the manager.", "anchors": ["rt1/_rtprocess_writer.py:RepeatTimer.run", "rt1/_rtprocess_writer.py:RT1_processor.print_progress", "rt1/_rtprocess_writer.py:RT1_processor.start_print_thread", "rt1/_rtprocess_writer.py:RT1_processor.run_starmap", "rt1/_rtprocess_writer.py:RT1_processor.stop"]}
{"id": "C227", "title": "NetCDF_variables shows every NetCDF-file with its own contents", "statement": "result.NetCDF_variables prints, for each .nc file of the results-folder exactly once, the name of the file followed by the dataset in this very file; a file that can not be read ends the overview after its name with the exception of the reader; without a NetCDF-file or results-folder it is an AssertionError and nothing is printed.", "quantifier": "for all listings of the results-folder, all names of files (also with several dots) and all contents", "why_tests_cant": "a test uses a folder with a few files; the claim is about all listings and names, e.g. names that contain dots or share a stem with files of another type", "anchors": ["rt1/rtresults.py: NetCDF_variables", "rt1/rtresults.py: load_nc", "rt1/rtresults.py: _get_results"]}
