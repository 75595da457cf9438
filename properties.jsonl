{"id": "C01", "title": "Closed-form priors: rescale is the exact inverse transform of prob", "statement": "For the Uniform, PowerLaw, LogUniform, SymmetricLogUniform, Exponential, Logistic, Cauchy, FermiDirac and Triangular priors the probability that prob() assigns to the interval between rescale(u) and rescale(v) is exactly v-u, so feeding uniform draws through rescale() samples the density that prob() reports.", "quantifier": "all valid prior parameters, all 0<=u<=v<=1 (open ends where the support is infinite)", "why_tests_cant": "A continuum of parameters and quantiles; a test compares a histogram at a few parameter values within a tolerance.", "anchors": ["bilby/core/prior/analytical.py:PowerLaw.rescale,PowerLaw.prob", "bilby/core/prior/analytical.py:Uniform", "bilby/core/prior/analytical.py:SymmetricLogUniform", "bilby/core/prior/analytical.py:Exponential", "bilby/core/prior/analytical.py:Logistic", "bilby/core/prior/analytical.py:Cauchy", "bilby/core/prior/analytical.py:FermiDirac", "bilby/core/prior/analytical.py:Triangular"]}
{"id": "C02", "title": "Samples never leave the declared support", "statement": "For every bounded closed-form prior rescale(u) lies in [minimum, maximum] for every u in [0,1], rescale is monotone in u, and it hits both bounds at u=0 and u=1.", "quantifier": "all valid prior parameters, all u in [0,1]", "why_tests_cant": "Real-valued inputs; tests draw finitely many u for fixed bounds.", "anchors": ["bilby/core/prior/analytical.py:Uniform.rescale", "bilby/core/prior/analytical.py:PowerLaw.rescale", "bilby/core/prior/analytical.py:Cosine.rescale", "bilby/core/prior/analytical.py:Sine.rescale", "bilby/core/prior/analytical.py:Triangular.rescale"]}
{"id": "C03", "title": "cdf is the integral of prob and the left inverse of rescale", "statement": "For the closed-form priors cdf(x) equals the integral of prob from the lower end of the support to x, lies in [0,1], and cdf(rescale(u)) = u. For PowerLaw and LogUniform this holds at positive arguments; at negative arguments (always outside their support) cdf is not reliable: it can return 1 or nan instead of 0.", "quantifier": "all valid parameters, all x in the support, all u in [0,1]", "why_tests_cant": "Equality of two real functions at every point; numeric tests check a grid to a tolerance.", "anchors": ["bilby/core/prior/analytical.py:PowerLaw.cdf", "bilby/core/prior/analytical.py:Uniform.cdf", "bilby/core/prior/analytical.py:SymmetricLogUniform.cdf", "bilby/core/prior/analytical.py:Exponential.cdf", "bilby/core/prior/analytical.py:Logistic.cdf", "bilby/core/prior/analytical.py:Cauchy.cdf", "bilby/core/prior/analytical.py:Triangular.cdf"]}
{"id": "C04", "title": "Cosine and Sine densities are normalised only on the default range", "statement": "Cosine and Sine rescale()/cdf() honour the user's truncated [minimum, maximum], but prob() integrates to (sin max - sin min)/2 (resp. (cos min - cos max)/2) over that range, so prob is a normalised density, and consistent with rescale, exactly when that number is 1; for every proper sub-range of the default range it is not.", "quantifier": "all ranges inside [-pi/2,pi/2] (Cosine) and [0,pi] (Sine)", "why_tests_cant": "Statement about every sub-range; existing tests only use the default range.", "anchors": ["bilby/core/prior/analytical.py:Cosine", "bilby/core/prior/analytical.py:Sine"]}
{"id": "C05", "title": "ln_prob is the logarithm of prob", "statement": "For the closed-form priors ln_prob(x)=ln(prob(x)) where prob(x)>0 and -infinity where prob(x)=0. SymmetricLogUniform violates it outside its support: ln_prob stays finite where prob is zero.", "quantifier": "all valid parameters, all real x", "why_tests_cant": "Every point of the real line, including the complement of the support.", "anchors": ["bilby/core/prior/analytical.py:PowerLaw.ln_prob", "bilby/core/prior/analytical.py:Uniform.ln_prob", "bilby/core/prior/analytical.py:SymmetricLogUniform.ln_prob", "bilby/core/prior/analytical.py:Exponential.ln_prob", "bilby/core/prior/analytical.py:Cauchy.ln_prob", "bilby/core/prior/analytical.py:FermiDirac.ln_prob"]}
{"id": "C06", "title": "Joint prior probability is the product of the individual ones, in any order", "statement": "PriorDict.prob of a sample is the product over the sample's keys of the individual densities times the normalisation factor cached for that key tuple, and zero whenever a constraint evaluated on the converted sample fails; it is defined exactly when all keys of the sample are in the dictionary; reordering the dictionary or the sample changes it only through the factor, which is cached per ordered key tuple; array-valued samples are evaluated row by row; ln_prob is the logarithm of prob as long as no individual ln_prob is +inf, in which case a scalar evaluation returns +inf without looking at the constraints.", "quantifier": "all finite prior dictionaries, samples and key orders", "why_tests_cant": "Unbounded dictionaries and permutations.", "anchors": ["bilby/core/prior/dict.py:PriorDict.prob", "bilby/core/prior/dict.py:PriorDict.ln_prob", "bilby/core/prior/dict.py:PriorDict.check_prob", "bilby/core/prior/dict.py:PriorDict.check_ln_prob", "bilby/core/prior/dict.py:PriorDict.evaluate_constraints"]}
{"id": "C07", "title": "Constrained sampling returns exactly the requested number of valid samples", "statement": "sample_subset_constrained with size n returns, whenever it returns, exactly n samples for every non-constraint key; every returned row is one row of one drawn batch, satisfies all constraints, and the rows are the first n accepted ones of the random stream in order; it returns as soon as n draws have been accepted; for size None or 1 it returns the first accepted draw. Constraint keys are deleted from the caller's key list.", "quantifier": "all sizes, all random streams, all constraints", "why_tests_cant": "Quantifies over every random history of a rejection loop.", "anchors": ["bilby/core/prior/dict.py:PriorDict.sample_subset_constrained"]}
{"id": "C08", "title": "Conditional priors are resolved in dependency order", "statement": "ConditionalPriorDict orders its conditional priors so that each one comes after every variable it requires; all keys are ordered exactly once if resolution succeeds, and resolution fails exactly when some required variable is missing from the dictionary or the dependency graph has a cycle, after which rescale and prob raise and change nothing; the order is kept up to date through every history of item assignments and deletions, but not through dict.update.", "quantifier": "all finite dictionaries and dependency graphs", "why_tests_cant": "All graphs; tests cover a handful.", "anchors": ["bilby/core/prior/dict.py:ConditionalPriorDict._resolve_conditions", "bilby/core/prior/dict.py:ConditionalPriorDict._check_resolved"]}
{"id": "C09", "title": "Conditional rescale index cache", "statement": "A successful ConditionalPriorDict.rescale returns, for every key in the order passed, the quantile of that key's prior at its unit value under the values returned (or held fixed) for its required variables, for every history of calls without edits and for every call whose key list differs from the previous one; the result does not depend on the order of the keys; it succeeds for a resolved dictionary. After an edit that changes the evaluation order, a call with the same key list uses the stale index list and mixes up the unit values.", "quantifier": "all key lists, unit cubes and edit histories", "why_tests_cant": "History-dependent cache behaviour over all sequences of calls.", "anchors": ["bilby/core/prior/dict.py:ConditionalPriorDict.rescale", "bilby/core/prior/dict.py:ConditionalPriorDict._update_rescale_keys"]}
{"id": "C10", "title": "Constraint normalisation factor cache", "statement": "The constraint normalisation factor used in prob() is computed once per tuple of keys, from the dictionary at that moment, and returned unchanged on every later call whatever is edited in between; it is 1 when no constraint is evaluated; after the constraints are edited the factor still refers to the old constraints.", "quantifier": "all histories of prob calls and prior edits", "why_tests_cant": "History-dependent.", "anchors": ["bilby/core/prior/dict.py:PriorDict.normalize_constraint_factor"]}
{"id": "C11", "title": "Conditional prior state machine", "statement": "A conditional prior evaluated with its full set of required variables, in any keyword order and after any history, uses its initial attributes overridden by what the condition function derives from the reference parameters, provided the function always returns the same parameter names; with a wrong non-empty set it raises and changes nothing; with no variables it keeps using the parameters of the last evaluation (not the reference parameters); reset restores the reference parameters. If the function returns a parameter only sometimes, the result depends on the history.", "quantifier": "all sequences of calls on one prior object", "why_tests_cant": "Every history of calls.", "anchors": ["bilby/core/prior/conditional.py:conditional_prior_factory.ConditionalPrior.update_conditions", "bilby/core/prior/conditional.py:conditional_prior_factory.ConditionalPrior.reset_to_reference_parameters"]}
{"id": "C12", "title": "Dirichlet priors are uniform on the simplex", "statement": "Rescaling a DirichletPriorDict yields one component in [0,1] per unit value with all partial sums in [0,1], and with the derived last element they sum to one; each element's rescale inverts the distribution function of its own density; the product of the conditional densities is the constant (n-1)! inside the simplex, i.e. the joint prior is uniform on the simplex.", "quantifier": "all dimensions n>=2 and all unit-cube points", "why_tests_cant": "Unbounded dimension, continuum of points.", "anchors": ["bilby/core/prior/conditional.py:DirichletElement", "bilby/core/prior/dict.py:DirichletPriorDict"]}
{"id": "C13", "title": "Interpolated prior is a normalised piecewise linear density", "statement": "Interped normalises its (resampled) table so that prob is a density of total mass exactly one; cdf is defined everywhere, non-decreasing from 0 to 1 and equals the exact mass of prob at every node; rescale is strictly increasing on (0,1], stays in the range, is a right inverse of cdf and raises outside [0,1]; rescale(0) is the minimum unless the first two ordinates vanish, when it is nan. Between nodes cdf is the chord and differs from the mass of prob by slope*(x-x0)*(x1-x)/2, so rescale does not sample prob exactly. An evenly spaced table over the full range is kept as supplied; any other table is resampled on an evenly spaced grid and can lose its peak.", "quantifier": "all grids of strictly increasing abscissae and non-negative ordinates with positive area", "why_tests_cant": "Grids of any length with arbitrary real ordinates.", "anchors": ["bilby/core/prior/interpolated.py:Interped._initialize_attributes"]}
{"id": "C14", "title": "Slab-and-spike prior quantiles", "statement": "SlabSpikePrior.rescale is the quantile function of the mixture (1 - spike_height) slab + spike_height spike: its value is at most x exactly when the unit value is at most the mixture's distribution function at x; the unit values mapped to the spike are exactly an interval of length spike_height; rescale is monotone and stays in the slab's range; cdf equals the mixture's distribution function everywhere but at the spike, where it leaves out the spike's mass. Changing spike_height after construction breaks rescale (the split point is not recomputed), and with the default height 0 prob is infinite at the spike.", "quantifier": "all slabs with continuous increasing cdf, spike locations in range, spike heights in [0,1]", "why_tests_cant": "Continuum of heights and unit values.", "anchors": ["bilby/core/prior/slabspike.py:SlabSpikePrior.rescale,SlabSpikePrior.cdf", "bilby/core/prior/slabspike.py:SlabSpikePrior._contracted_rescale"]}
{"id": "C15", "title": "Reflection of unit-cube points", "statement": "reflect(u) always lies in [0,1], is the identity on [0,1], is even, has period 2, maps exactly the points 2n +/- x to x, and never increases the distance of two points.", "quantifier": "all real u", "why_tests_cant": "All reals.", "anchors": ["bilby/core/utils/samples.py:reflect"]}
{"id": "C16", "title": "Kish effective sample size is between one and the number of samples", "statement": "kish_log_effective_sample_size of n log weights, not all -inf, is the log of a number between 1 and n, equals log n exactly when all weights are equal, is invariant under adding a constant to all log weights, under reordering and under adding zero weights; it is nan when all weights are zero.", "quantifier": "all non-empty weight vectors", "why_tests_cant": "Unbounded vectors of reals.", "anchors": ["bilby/core/utils/samples.py:kish_log_effective_sample_size"]}
{"id": "C17", "title": "FFT round trip", "statement": "infft(nfft(x)) = x and Parseval's identity hold for every real series of even length. A tone at p*fs/n appears in bin p only. The frequency array returned by nfft gives every bin its true frequency for even length; for odd length it overstates every bin but the first, and the round trip silently returns one sample fewer.", "quantifier": "all lengths, all real series, all sampling frequencies", "why_tests_cant": "All lengths and all inputs.", "anchors": ["bilby/core/utils/series.py:nfft", "bilby/core/utils/series.py:infft"]}
{"id": "C18", "title": "Time and frequency array shapes", "statement": "For an integer product n of duration and sampling frequency the time array is start + k/fs with n points. For even n the frequency array is k/duration with n/2+1 points ending at fs/2, and fs and duration can be read back from both arrays. For odd n the spacing is not 1/duration and the number of points matches nfft only when n = 1 mod 4. A product accepted just below an integer gives one time sample too few; a product outside the tolerance is refused by both functions.", "quantifier": "all durations and sampling frequencies with integer product, plus the rounding cases", "why_tests_cant": "Number-theoretic statement about all n.", "anchors": ["bilby/core/utils/series.py:create_frequency_series", "bilby/core/utils/series.py:create_time_series", "bilby/core/utils/series.py:get_sampling_frequency", "bilby/core/utils/series.py:get_sampling_frequency_and_duration_from_time_array", "bilby/core/utils/series.py:get_sampling_frequency_and_duration_from_frequency_array", "bilby/core/utils/series.py:_check_legal_sampling_frequency_and_duration"]}
{"id": "C19", "title": "Crash-safe state dump", "statement": "At every crash point of safe_file_dump the destination holds its complete previous content or the complete new content, and no file but the destination and its .temp companion changes; over any history of interrupted dumps it holds the data of the last dump that finished. Two concurrent dumps to the same file share the temporary name and can expose an empty file.", "quantifier": "all contents, crash points and histories of dumps; all pairs of concurrent dumps", "why_tests_cant": "All crash points.", "anchors": ["bilby/core/utils/io.py:safe_file_dump"]}
{"id": "C20", "title": "Saving a result survives one crash but not two", "statement": "A completed save_to_file holds exactly the new data and keeps the previous result as .old. With overwrite=False, at every crash point of one save the previous complete result is on disk under its name or .old; two interrupted saves in a row destroy it. With overwrite=True there is a crash point with no result at all. An encoder error leaves the truncated file under the final name next to a complete .pkl, whose name is cut at the last dot of the whole path.", "quantifier": "all crash points and all sequences of saves", "why_tests_cant": "All crash histories.", "anchors": ["bilby/core/result.py:Result.save_to_file", "bilby/core/utils/io.py:move_old_file"]}
{"id": "C21", "title": "JSON encoding round trip", "statement": "Every value built from None, booleans, numbers, strings, lists, tuples, dictionaries, arrays, complex numbers, data frames, series, functions, classes, timedeltas, priors, cosmologies and quantities can be written and read back, provided its classes can be imported and no user dictionary has a reserved marker key with a true value. It comes back unchanged except that tuples become lists, numpy scalars python numbers, keys strings, a nested prior dictionary a plain dictionary, and row labels of a data frame 0..n-1. Writing raises exactly if some part has no encoding. A dictionary with a true marker is never returned as a dictionary. PriorDict.to_json then from_json gives the same class, names, order and priors, without the conversion function. A prior whose class no longer exists becomes a base Prior, a function or class that no longer exists its dotted name; a missing module raises.", "quantifier": "all values of any nesting depth", "why_tests_cant": "Unbounded nesting.", "anchors": ["bilby/core/utils/io.py:BilbyJsonEncoder,decode_bilby_json", "bilby/core/prior/dict.py:PriorDict.to_json,PriorDict.from_json"]}
{"id": "C22", "title": "Grid marginalisation does not depend on the order of parameters", "statement": "Marginalising a gridded array over distinct known parameters succeeds, keeps the other axes in order, and the exponential of the result is the tensor-product trapezoid sum over the marginalised axes (an axis with one point is dropped, not integrated). The result does not depend on the order of the names; naming the parameters to keep is the same as naming the others; marginalising everything gives the evidence, which is also the trapezoid sum of any marginal posterior; a constant added to the log likelihood is added to every marginal; bounds on the likelihood bound the evidence. Unknown or repeated names are refused. A second call on an already marginalised array is not the same as one call: it counts axes from the full list of names and can raise.", "quantifier": "all grids of any dimension and size with increasing points, all arrays without nan, all lists of names", "why_tests_cant": "Any dimension; floating-point tests check two or three.", "anchors": ["bilby/core/grid.py:Grid.marginalize", "bilby/core/grid.py:Grid._marginalize_single"]}
{"id": "C23", "title": "Resumed reweighting", "statement": "An uninterrupted reweighting returns for every row its old and new log likelihood and log prior and their combination as log weight. A run resumed from a checkpoint written at row c gives the same arrays exactly when the old and new log priors vanish for all rows strictly between c and the row whose old log likelihood is nearest to zero (the restart index); after any number of interruptions the likelihood arrays are right, all entries from that row on are right, and every other entry is right or has both priors missing. A resume file left by an earlier call is reused for a different target.", "quantifier": "all numbers of samples, checkpoint frequencies and crash points", "why_tests_cant": "All crash histories.", "anchors": ["bilby/core/result.py:get_weights_for_reweighting"]}
{"id": "C24", "title": "Combining nested sampling runs", "statement": "The combined log evidence of several runs is the log of the mean evidence, lies between the extremes, is independent of the order of the runs and shifts with a common offset; the combined error lies between the extremes if all errors are finite, but can be negative otherwise and does not shrink with the number of runs; a run of largest evidence keeps all its rows, keep probabilities are in the ratio of the evidences, and no row is invented. The prior check passes exactly when all dictionaries have the same keys with equal priors, unless the first dictionary is empty; a key missing from a later dictionary of equal length escapes as KeyError.", "quantifier": "all non-empty lists of results", "why_tests_cant": "Unbounded lists of reals.", "anchors": ["bilby/core/result.py:ResultList._combine_nested_sampled_runs", "bilby/core/result.py:ResultList._combine_mcmc_sampled_runs", "bilby/core/result.py:ResultList.check_consistent_priors"]}
{"id": "C25", "title": "Sampler splits parameters into searched, fixed and constraint keys", "statement": "Each parameter of bilby's prior classes lands in exactly one of search, constraint and fixed keys, search keys in prior order. At every likelihood call of any run the likelihood sees the sampled vector under the search keys, the delta-function values under the fixed keys and its earlier values elsewhere. A fixed prior that is neither Constraint nor DeltaFunction lands in no list, and a vector that is too short is accepted and keeps the values of the previous call for the missing parameters.", "quantifier": "all prior dictionaries", "why_tests_cant": "All dictionaries.", "anchors": ["bilby/core/sampler/base_sampler.py:Sampler._initialise_parameters"]}
{"id": "C26", "title": "Temporary-directory hand-over never loses data", "statement": "At every crash point of the hand-over from the temporary to the permanent directory every file of the temporary directory is complete in at least one of the two; files present only in the permanent directory are never touched; a finished hand-over leaves the union. After a crash while copying, a restart can begin from a truncated file.", "quantifier": "all directory contents, all crash points", "why_tests_cant": "All crash points.", "anchors": ["bilby/core/sampler/base_sampler.py:_TemporaryFileSamplerMixin._move_temporary_directory_to_proper_path"]}
{"id": "C27", "title": "Signal handlers are restored only on normal return", "statement": "A run that returns normally restores the three previous signal handlers; over any sequence of runs the handlers are those of the last run that raised, or the original ones. They are not restored when a run raises, nor SIGTERM and SIGINT where SIGALRM does not exist; a handler installed outside Python turns a successful run into an exception.", "quantifier": "all previous handlers and all run outcomes", "why_tests_cant": "All outcomes.", "anchors": ["bilby/core/sampler/base_sampler.py:signal_wrapper"]}
{"id": "C28", "title": "Random-walk proposals respect the likelihood threshold", "statement": "A fixed-length random walk step returns unit-cube coordinates inside the cube together with the transformed parameters and the likelihood of exactly those coordinates; the likelihood exceeds the threshold if at least one move was accepted, otherwise the step returns a random point of the cube, whose likelihood may lie below the threshold and whose evaluation is not counted. Accepted plus rejected moves equals the number of walks, a move outside the cube costs no likelihood call, and a move is accepted exactly when it stays inside and exceeds the threshold.", "quantifier": "all proposal streams, thresholds, boundary settings and walk lengths", "why_tests_cant": "All random streams.", "anchors": ["bilby/core/sampler/dynesty_utils.py:FixedRWalk.__call__"]}
{"id": "C29", "title": "Boundary handling keeps proposals in the unit cube", "statement": "apply_boundaries_ returns either nothing or a point of the same length in the closed unit cube that is congruent mod 1 to the proposal in periodic coordinates, its mirror image in reflective ones and unchanged in all others, and returns nothing exactly when a coordinate with neither boundary lies outside [0,1]. The periodic and reflective boundaries of bilby_mcmc do the same for a prior range.", "quantifier": "all proposals of any dimension and boundary assignment", "why_tests_cant": "All reals and dimensions.", "anchors": ["bilby/core/sampler/dynesty_utils.py:apply_boundaries_"]}
{"id": "C30", "title": "Markov chain storage behaves like a growing list", "statement": "For any sequence of appends and valid assignments the chain storage of bilby_mcmc holds exactly the list of samples this describes, in order, whatever the (positive) block length; indices from -n to n-1 read it as a Python list, indices n and above raise, current_sample is the last sample appended, max_log_likelihood (after appends only) is the largest appended value, and .samples leaves out the newest sample. Exceptions: an index below -n can silently read zero padding, and an assignment updates neither current_sample nor max_log_likelihood.", "quantifier": "all operation sequences, block lengths and indices", "why_tests_cant": "All histories.", "anchors": ["bilby/bilby_mcmc/chain.py:Chain.append,Chain._extend_chain_array,Chain.__getitem__,Chain.__setitem__"]}
{"id": "C31", "title": "Accepted temperature swaps are not used by the next step", "statement": "An accepted swap between neighbouring temperatures exchanges the last stored samples (a rejected one changes nothing), but every chain's current sample stays what it was, so the next Metropolis step of each chain starts from its own pre-swap sample. For proposals that do not read the stored chain, deleting all swaps from a run of any length changes no current sample of any chain.", "quantifier": "all numbers of temperatures, chain states, proposals, random draws and run lengths", "why_tests_cant": "History property over chains.", "anchors": ["bilby/bilby_mcmc/sampler.py:BilbyPTMCMCSampler.swap_tempered_chains", "bilby/bilby_mcmc/sampler.py:BilbyMCMCSampler.step", "bilby/bilby_mcmc/chain.py:Chain.__setitem__"]}
{"id": "C32", "title": "Metropolis-Hastings acceptance satisfies detailed balance", "statement": "With the accept/reject rule of step(), a uniform draw and any proposal whose log factor is the log ratio of reverse to forward proposal probability, probability flow between any two states is the same in both directions; the tempered posterior likelihood^beta*prior is therefore unchanged by any number of iterations with any cycle of such proposals, and samples with zero prior or non-finite likelihood are never moved to.", "quantifier": "all finite state spaces, likelihoods, priors, inverse temperatures, proposal kernels and step counts", "why_tests_cant": "Distribution-level statement.", "anchors": ["bilby/bilby_mcmc/sampler.py:BilbyMCMCSampler.step"]}
{"id": "C33", "title": "Parallel-tempering swap satisfies detailed balance", "statement": "The swap acceptance rule leaves the product of all tempered posteriors invariant for a whole round of neighbour swaps.", "quantifier": "all numbers of temperatures, ladders, likelihoods and priors on finite state spaces", "why_tests_cant": "Distribution-level statement.", "anchors": ["bilby/bilby_mcmc/sampler.py:BilbyPTMCMCSampler.swap_tempered_chains"]}
{"id": "C34", "title": "Mass parameter conversions are mutually inverse", "statement": "Component masses computed from (chirp mass, mass ratio), (total mass, mass ratio) or (total mass, symmetric mass ratio) reproduce the chirp mass, total mass, symmetric mass ratio and mass ratio they were computed from, and conversely.", "quantifier": "all positive masses and mass ratios in (0,1]", "why_tests_cant": "Continuum of masses.", "anchors": ["bilby/gw/conversion.py:chirp_mass_and_mass_ratio_to_component_masses", "bilby/gw/conversion.py:total_mass_and_mass_ratio_to_component_masses", "bilby/gw/conversion.py:symmetric_mass_ratio_to_mass_ratio", "bilby/gw/conversion.py:component_masses_to_chirp_mass", "bilby/gw/conversion.py:component_masses_to_total_mass", "bilby/gw/conversion.py:component_masses_to_symmetric_mass_ratio", "bilby/gw/conversion.py:component_masses_to_mass_ratio", "bilby/gw/conversion.py:chirp_mass_and_total_mass_to_symmetric_mass_ratio", "bilby/gw/conversion.py:chirp_mass_and_mass_ratio_to_total_mass"]}
{"id": "C35", "title": "Mass ratio from one mass and the chirp mass", "statement": "chirp_mass_and_primary_mass_to_mass_ratio and mass_1_and_chirp_mass_to_mass_ratio return the unique positive root of q^3 = (Mc/m1)^5 (1+q), hence invert the chirp-mass formula, whenever (Mc/m1)^5 <= 27/4; mass_2_and_chirp_mass_to_mass_ratio therefore works exactly for mass ratios q >= 1/3 and takes the square root of a negative number for every q < 1/3.", "quantifier": "all positive masses", "why_tests_cant": "Continuum; the failure region is easy to miss by sampling near-equal masses.", "anchors": ["bilby/gw/conversion.py:mass_1_and_chirp_mass_to_mass_ratio", "bilby/gw/conversion.py:mass_2_and_chirp_mass_to_mass_ratio", "bilby/gw/conversion.py:chirp_mass_and_primary_mass_to_mass_ratio"]}
{"id": "C36", "title": "Tidal parameter conversions are mutually inverse", "statement": "lambda_tilde/delta_lambda_tilde and lambda_1/lambda_2 conversions are inverse to each other whenever the determinant is non-zero; the symmetric/antisymmetric pair is inverse always; the equal-deformability conversion satisfies lambda_1 m1^5 = lambda_2 m2^5.", "quantifier": "all masses and tidal parameters", "why_tests_cant": "Continuum.", "anchors": ["bilby/gw/conversion.py:lambda_tilde_delta_lambda_tilde_to_lambda_1_lambda_2", "bilby/gw/conversion.py:lambda_1_lambda_2_to_lambda_tilde", "bilby/gw/conversion.py:lambda_tilde_to_lambda_1_lambda_2", "bilby/gw/conversion.py:lambda_1_lambda_2_to_delta_lambda_tilde", "bilby/gw/conversion.py:lambda_1_lambda_2_to_lambda_symmetric", "bilby/gw/conversion.py:lambda_1_lambda_2_to_lambda_antisymmetric", "bilby/gw/conversion.py:lambda_symmetric_lambda_antisymmetric_to_lambda_1_lambda_2"]}
{"id": "C37", "title": "Generating component masses", "statement": "For any dictionary, generate_component_masses changes no parameter that is present and nothing but mass parameters. Two different mass parameters, not just the two ratios, give both component masses; if they are consistent with a binary m1>=m2>0 the masses are exactly m1 and m2 and every parameter filled in on the way has the binary's value, except from secondary mass and chirp mass alone with m1>3*m2, where nan is stored. A KeyError occurs exactly if there are no two such parameters and either require_add is set or the secondary mass is present, otherwise the dictionary is returned unchanged.", "quantifier": "all dictionaries of parameters, all binaries, both frames, both settings of require_add", "why_tests_cant": "All subsets and values.", "anchors": ["bilby/gw/conversion.py:generate_component_masses"]}
{"id": "C38", "title": "Conditional joint probability", "statement": "ConditionalPriorDict.prob of a non-empty sample is the product of the individual densities, each conditioned on the values its required variables have in the sample; it is independent of the history of the object when the sample contains all required variables; for a required variable that is not in the sample the value of the most recent draw or evaluation is used silently.", "quantifier": "all dictionaries, samples and histories of calls", "why_tests_cant": "History-dependent hidden state.", "anchors": ["bilby/core/prior/dict.py:ConditionalPriorDict.prob", "bilby/core/prior/dict.py:ConditionalPriorDict._prepare_evaluation", "bilby/core/prior/dict.py:ConditionalPriorDict.get_required_variables"]}
{"id": "C39", "title": "Conditional sampling uses one consistent draw", "statement": "ConditionalPriorDict.sample_subset returns values only for the requested keys; each value is the quantile at its own random number under the values drawn in the same call for its required variables, or under the stored value of a DeltaFunction that was not requested; a required variable that is neither is an error. Drawing an array of samples leaves an array as the stored value of a requested DeltaFunction, so that a later scalar rescale of a prior depending on it returns an array.", "quantifier": "all dictionaries, key subsets, random streams and histories", "why_tests_cant": "Hidden state and arbitrary dependency graphs.", "anchors": ["bilby/core/prior/dict.py:ConditionalPriorDict.sample_subset", "bilby/core/prior/dict.py:ConditionalPriorDict.rescale"]}
{"id": "C40", "title": "Credible intervals around the median", "statement": "The quantiles used by SamplesSummary grow with their level, the median is the quantile at one half, so for every valid confidence level the absolute credible interval contains the median and intervals of larger level contain those of smaller level; with average='mean' the average can lie outside the interval.", "quantifier": "all non-empty sample arrays, all confidence levels", "why_tests_cant": "All arrays of reals of any length.", "anchors": ["bilby/core/utils/samples.py:SamplesSummary"]}
{"id": "C41", "title": "The stretch move draws the stretch factor and reports the log factor that make it reversible", "statement": "The stretch factor lies in [1/a, a] and has exactly the density proportional to 1/sqrt(z) that the Goodman-Weare move requires; the reverse move with 1/z restores the sample with opposite log factor, and exp(log_factor)=z^(ndim-1) is the ratio of reverse to forward proposal density along the ray.", "quantifier": "all scales a > 1, draws, dimensions, samples and complements", "why_tests_cant": "Continuous distribution and all dimensions.", "anchors": ["bilby/bilby_mcmc/proposals.py:_stretch_move,StretchProposal,EnsembleStretch"]}
{"id": "C42", "title": "Phase and polarisation proposals are reversible symmetries", "statement": "The reversal proposals land in [0,2pi) and [0,pi); with opposite fuzz they undo themselves, without fuzz they leave the quadrupole combinations 2*phase and 4*psi unchanged modulo full turns; the correlated jump keeps either psi+phase or psi-phase, and a phase stored as delta_phase is read back modulo 2pi.", "quantifier": "all angles, fuzz values and draws", "why_tests_cant": "All real angles.", "anchors": ["bilby/bilby_mcmc/proposals.py:PhaseReversalProposal,PolarisationReversalProposal,PhasePolarisationReversalProposal,CorrelatedPolarisationPhaseJump,BaseGravitationalWaveTransientProposal.get_phase"]}
{"id": "C43", "title": "The adaptive Gaussian scale stays positive and freezes", "statement": "Whatever the sequence of acceptances, the scale never falls below min(initial scale, 1/stop); while adapting it grows after an accepted use and shrinks (or sits at the bound) after a rejected one; from stop uses on it never changes.", "quantifier": "all histories and settings", "why_tests_cant": "All histories.", "anchors": ["bilby/bilby_mcmc/proposals.py:AdaptiveGaussianProposal.update_scale"]}
{"id": "C44", "title": "UniformProposal never proposes a new point", "statement": "Contrary to its documentation, UniformProposal leaves every parameter unchanged even for priors of finite width, so a chain using only it never moves.", "quantifier": "all priors, likelihoods, temperatures, draws and run lengths", "why_tests_cant": "Negative statement over all runs.", "anchors": ["bilby/bilby_mcmc/proposals.py:UniformProposal.propose"]}
{"id": "C45", "title": "The proposal cycle visits its entries round robin", "statement": "From any position the k-th draw of a proposal cycle is the entry k places further round; a full turn returns each entry once, in order, and ends at its start.", "quantifier": "all cycles, positions and numbers of draws", "why_tests_cant": "All lengths and histories.", "anchors": ["bilby/bilby_mcmc/proposals.py:ProposalCycle"]}
{"id": "C46", "title": "Evidence estimates are bounded, telescoping and averaged correctly, but miss the range below the hottest chain", "statement": "The stepping-stone estimate is at least the lower thermodynamic sum of the same samples; both estimates lie between (beta_max-beta_min) times the extreme log likelihoods; stepping stone telescopes to the log ratio of the end normalisations; ensembles are combined to the arithmetic mean evidence with an error not below the mean error. For a constant likelihood k both give (1-beta_min)*k, so they are exact only when the hottest chain has beta=0.", "quantifier": "all ladders, sample arrays and numbers of ensembles", "why_tests_cant": "Real-valued sample arrays of any size.", "anchors": ["bilby/bilby_mcmc/sampler.py:BilbyPTMCMCSampler._calculate_stepping_stone,BilbyPTMCMCSampler._compute_evidence_from_mean_lnlikes,BilbyPTMCMCSampler.compute_evidence_per_ensemble"]}
{"id": "C47", "title": "Temperature adaptation keeps all rungs except the hottest ordered", "statement": "The initial ladder is geometric from 1 to 1/Tmax. Adaptation keeps the number of rungs, the coldest and the hottest, keeps all rungs but the hottest positive and strictly ordered, leaves the ladder unchanged when all ratios agree, and widens a gap exactly when the colder rung has the larger ratio. It does not keep the interior below the fixed hottest temperature.", "quantifier": "all ladders, acceptance ratios and decay factors", "why_tests_cant": "All real ladders and histories.", "anchors": ["bilby/bilby_mcmc/sampler.py:BilbyPTMCMCSampler.adapt_temperatures,BilbyPTMCMCSampler.get_initial_betas"]}
{"id": "C48", "title": "Cached arrays follow duration and sampling frequency, but not each other", "statement": "In CoupledTimeAndFrequencySeries, after duration or sampling_frequency is assigned, and through any reads and start_time assignments, time_array and frequency_array are those of the current attributes, whatever happened before. An accepted frequency array is returned as assigned. Assigning one array after the other was read leaves the other stale, and a refused array can still be returned by the next read.", "quantifier": "all sequences of assignments and reads", "why_tests_cant": "Requires all interleavings of assignments and cached reads.", "anchors": ["bilby/core/series.py:CoupledTimeAndFrequencySeries"]}
{"id": "C49", "title": "Saving a result replaces its callable sampler arguments", "statement": "save_to_file keeps every key and every non-callable value of sampler_kwargs, and replaces each callable, in the result object itself, by the text of the whole dictionary as it stands at that moment.", "quantifier": "all dictionaries", "why_tests_cant": "All dictionaries and positions of callables.", "anchors": ["bilby/core/result.py:Result.save_to_file"]}
{"id": "C50", "title": "A termination signal checkpoints once, or is ignored when a parallel run has no open pool", "statement": "write_current_state_and_exit checkpoints and exits on every signal in a serial run, exactly once over any number of signals in a parallel run with an open pool, and does nothing at all in a parallel run whose pool is not open, whether in a worker or in the parent before set-up or after closing.", "quantifier": "all numbers of signals and pool states", "why_tests_cant": "All signal sequences.", "anchors": ["bilby/core/sampler/base_sampler.py:Sampler.write_current_state_and_exit,Sampler._close_pool"]}
{"id": "C51", "title": "Reweighting by rejection sampling", "statement": "reweight keeps a row exactly when its uniform number is below its weight divided by the largest weight, keeps rows in order and always the one of largest weight; it adds the log of the mean weight to the log evidence; with no new likelihood and prior it returns the posterior and evidence unchanged; multiplying the new likelihood by a constant keeps the same rows and shifts the log evidence by its logarithm; log weights of successive changes of target add up.", "quantifier": "all posteriors, weights, likelihoods, priors and random numbers", "why_tests_cant": "Unbounded posteriors, all random streams.", "anchors": ["bilby/core/result.py:reweight", "bilby/core/result.py:rejection_sample", "bilby/core/result.py:get_weights_for_reweighting"]}
{"id": "C52", "title": "Reweighting changes the result that was passed in", "statement": "reweight overwrites the stored log likelihood and log prior of the caller's posterior with the new values, so a second call for the same result without explicit old likelihood and prior measures its weights against the first target; with both given, the outcome does not depend on any earlier calls.", "quantifier": "all posteriors and all sequences of earlier calls", "why_tests_cant": "All call histories; needs an aliasing model.", "anchors": ["bilby/core/result.py:reweight"]}
{"id": "C55", "title": "Cached points of the autocorrelation walk are served in order, once, at or above the threshold", "statement": "Every successful construction of the cache leaves at least one point; each cached point carries its own parameters and likelihood and is either the start point of the walk or lies in the cube strictly above the threshold at that time. Over any sequence of calls with any thresholds, points are served in the order they were made, each at most once, with likelihood at least (possibly equal to) the threshold of the call. A construction walk without an accepted move raises an overflow error.", "quantifier": "all proposal streams, thresholds, walk lengths and call sequences", "why_tests_cant": "Histories of arbitrary length and all random streams.", "anchors": ["bilby/core/sampler/dynesty_utils.py:ACTTrackingRWalk"]}
{"id": "C56", "title": "The acceptance-tracking walk returns a consistent point, and stops unless proposals keep leaving the cube", "statement": "Whenever the walk stops, coordinates, parameters and likelihood belong together, the point is in the cube and is above the threshold or the random replacement, accepted plus rejected moves equals the iterations, and at most maxmcmc+1 likelihood calls are used. If all proposals stay inside, the walk stops within maxmcmc+1 iterations; if none does, it never stops. With maxmcmc smaller than nact and all proposals inside, every accepted move is discarded for a random point.", "quantifier": "all proposal streams, thresholds and settings", "why_tests_cant": "Unbounded executions, non-termination.", "anchors": ["bilby/core/sampler/dynesty_utils.py:AcceptanceTrackingRWalk.__call__"]}
{"id": "C57", "title": "Adaptation of the walk length", "statement": "The estimated number of walk steps lies between the safety factor and the larger of it and maxmcmc; at constant acceptance fraction a its distance from safety*(2/a-1) shrinks by exactly 1-1/tau per update while the limits do not bind, and at acceptance zero it never decreases. The fixed walk's running length approaches n_target divided by the acceptance fraction, its distance shrinking by delay/(delay+1) per update, and the integer used never exceeds maxmcmc.", "quantifier": "all real settings, acceptance fractions and numbers of updates", "why_tests_cant": "Limits over any number of updates.", "anchors": ["bilby/core/sampler/dynesty_utils.py:AcceptanceTrackingRWalk.estimate_nmcmc", "bilby/core/sampler/dynesty_utils.py:FixedRWalk"]}
{"id": "C53", "title": "Keyword arguments handed to a sampler", "statement": "The arguments handed to the sampler have exactly the names of its defaults, in that order. An ordinary argument has the user's value or the default. An argument with aliases has the value given under its own name, else under the alias that comes last in bilby's list, else the default. bilby's own random generator is seeded exactly when a seed is given under an alias and not under the sampler's own name, and then with the sampler's seed. The pool size is taken from the first recognised name.", "quantifier": "all default dictionaries, user dictionaries and alias tables with disjoint names", "why_tests_cant": "All dictionaries and combinations of aliases.", "anchors": ["bilby/core/sampler/base_sampler.py:Sampler.kwargs,Sampler._translate_kwargs,Sampler._verify_kwargs_against_default_kwargs,Sampler.npool", "bilby/core/sampler/dynesty.py:Dynesty._translate_kwargs"]}
{"id": "C54", "title": "Initial points from the prior", "statement": "When get_initial_points_from_prior returns, it has exactly npoints rows, the accepted draws in order with no draw after the last of them; unit-cube points, parameters and likelihoods belong together and have finite prior and likelihood; it used one likelihood evaluation per draw plus one per row. It returns exactly when enough draws of the stream are acceptable. A nested sampler never starts from a point violating a constraint. A finite value equal in magnitude to the largest double is treated as infinite, no other finite value is.", "quantifier": "all random streams, transforms, priors, likelihoods and numbers of points", "why_tests_cant": "Unbounded rejection loop over all random streams.", "anchors": ["bilby/core/sampler/base_sampler.py:Sampler.get_initial_points_from_prior,Sampler.check_draw,Sampler._check_bad_value", "bilby/core/sampler/base_sampler.py:NestedSampler.log_likelihood"]}
{"id": "C58", "title": "Reordered likelihoods match their samples", "statement": "If likelihoods are a function of the sample, reorder_loglikelihoods returns for any reordering or selection with repetition the likelihood of each sample; a sample that does not occur exactly raises IndexError; repeated samples with different likelihoods all get the first value.", "quantifier": "all sample arrays and likelihood functions", "why_tests_cant": "All arrays and permutations, duplicates.", "anchors": ["bilby/core/sampler/base_sampler.py:NestedSampler.reorder_loglikelihoods"]}
{"id": "C59", "title": "Completing the mass parameters", "statement": "For any dictionary with two different mass parameters (not just the two ratios) consistent with a binary m1>=m2>0, generate_mass_parameters returns a dictionary in which all six mass parameters have the binary's values, the given ones unchanged and nothing else touched (same exception as for the component masses). It raises KeyError exactly if there are no two such parameters.", "quantifier": "all dictionaries of parameters and all binaries, both frames", "why_tests_cant": "All reals and all subsets of parameters.", "anchors": ["bilby/gw/conversion.py:generate_mass_parameters,generate_component_masses"]}
{"id": "C60", "title": "Conversion to waveform parameters keeps what was given", "statement": "convert_to_lal_binary_black_hole_parameters returns the caller's keys in order followed by exactly the added keys; every given value is kept except those the conversion redefines (detector-frame value of a given source-frame one, tilt and magnitude from chi, angle from its cosine, phase from delta_phase). Source-frame masses become m*(1+z). Spins given as chi, as chi and in-plane part or as chi and magnitude are reproduced by magnitude and tilt (a*cos(tilt)=chi). The phase lies in [0,2pi) and phase+sign(cos theta_jn)*psi=delta_phase mod 2pi. A source-frame mass with only a comoving distance raises KeyError. In arrays, one sample with zero spin sets the tilt of all samples to zero.", "quantifier": "all dictionaries of parameters and all cosmologies", "why_tests_cant": "All reals, all subsets of parameters, arrays of any length.", "anchors": ["bilby/gw/conversion.py:convert_to_lal_binary_black_hole_parameters"]}
{"id": "C61", "title": "Source-frame parameters invert the redshifting", "statement": "generate_source_frame_parameters raises KeyError exactly without luminosity distance; otherwise the source-frame value of each mass times 1+z is the mass, redshift and comoving distance are those of the cosmology, and nothing else changes. Given back to the waveform conversion with the same redshift, the source-frame masses yield the original masses.", "quantifier": "all dictionaries and all cosmologies with z<>-1", "why_tests_cant": "All reals and cosmologies.", "anchors": ["bilby/gw/conversion.py:generate_source_frame_parameters,convert_to_lal_binary_black_hole_parameters"]}
{"id": "C62", "title": "Effective spins", "statement": "chi_eff is the mass-weighted mean of the aligned components, hence between them. chi_p is at least the in-plane spin of the primary, at most the larger in-plane spin, equal to it for equal masses, and zero exactly if both are zero. Spins along the orbital angular momentum are passed on unchanged, with zero in-plane parts, without calling lalsimulation. The azimuths lie in [0,2pi) and reproduce the in-plane components. Without usable spins generate_spin_parameters raises KeyError.", "quantifier": "all real spins, mass ratios and lalsimulation results", "why_tests_cant": "All reals.", "anchors": ["bilby/gw/conversion.py:generate_spin_parameters,generate_component_spins,bilby_to_lalsimulation_spins"]}
{"id": "C63", "title": "The grid holds the likelihood at its own points", "statement": "Evaluating the likelihood on a grid with distinct points per axis stores at every index the log likelihood with the gridded parameters set to the point of that index and all others unchanged. If an axis holds a value twice the evaluation raises an exception, and only then; hence a fixed parameter with two or more points always fails. An integer grid size gives increasing points from rescale(0) to rescale(1) when rescale is strictly increasing.", "quantifier": "all grids, all likelihoods that are functions of the parameter values, all contents of the parameter dictionary before", "why_tests_cant": "Any dimension and size; a test evaluates one small grid.", "anchors": ["bilby/core/grid.py:Grid._evaluate_recursion,Grid._get_sample_points"]}
{"id": "C64", "title": "logtrapzexp is the trapezoid rule in logarithms", "statement": "The exponential of logtrapzexp equals the trapezoid rule applied to the exponentials of its arguments, also with -inf entries; it is exact for constants; a single step size gives the same as the array of equal steps; an array of steps of the wrong length is refused; a negative step yields nan.", "quantifier": "all lengths of at least two, all values, all positive steps", "why_tests_cant": "All real inputs.", "anchors": ["bilby/core/utils/calculus.py:logtrapzexp"]}
{"id": "C65", "title": "Decoding loaded metadata", "statement": "recursively_decode_bilby_json applied to a dictionary loaded without decoding gives what decoding while loading gives, provided objects with markers occur neither inside one another nor inside lists. Applied to data that was already decoded it changes nothing, so setting Result.meta_data twice is harmless. Objects inside lists are not decoded.", "quantifier": "all JSON documents and all values of any nesting depth", "why_tests_cant": "Unbounded nesting.", "anchors": ["bilby/core/utils/io.py:recursively_decode_bilby_json", "bilby/core/result.py:Result.meta_data"]}
{"id": "C66", "title": "Rescaling the unit cube works coordinate by coordinate", "statement": "PriorDict.rescale returns one value per key, in the order of the keys, value i being the rescaled coordinate i of the prior of key i; it raises exactly if a key has no prior; changing one coordinate changes only that value. If fewer coordinates than keys are given the missing ones are silently left out.", "quantifier": "all key lists, all coordinates, all rescale functions", "why_tests_cant": "All lengths and orders.", "anchors": ["bilby/core/prior/dict.py:PriorDict.rescale"]}
{"id": "C67", "title": "HDF5 result files keep every value at its place", "statement": "Saving a dictionary (nested, with tuples, data frames and functions) to HDF5 and loading it gives at every sequence of keys the same value, except that: tuples, data frames and functions are dictionaries, strings and bytes are text, the text '__none__' is None, lists of numbers are arrays, other lists are lists of texts (None becomes '__none__'), timedeltas are seconds, a prior dictionary is its JSON text. Nothing else is in the file; names come back sorted; empty dictionaries vanish. Saving raises exactly if some value has no HDF5 form, which includes lists of booleans. Keys must be non-empty and without '/': a key 'a/b' comes back nested and may clash.", "quantifier": "all dictionaries of any depth with distinct plain keys", "why_tests_cant": "Unbounded nesting, all combinations of types.", "anchors": ["bilby/core/utils/io.py:encode_for_hdf5,decode_from_hdf5,recursively_save_dict_contents_to_group,recursively_load_dict_contents_from_group"]}
{"id": "C68", "title": "Gaussian likelihood", "statement": "The exponential of GaussianLikelihood.log_likelihood is the product of the normal densities of the residuals, which integrates to one over a datum. A sampled sigma replaces the one given at construction. Of two models the one with the smaller sum of squared residuals is more likely; the root mean square of the residuals is the most likely sigma. Data sets add up; order and signs do not matter. An array of sigmas is accepted only with one entry per datum; a sigma of zero gives nan.", "quantifier": "all data, models and noise levels of any length", "why_tests_cant": "All reals and all lengths.", "anchors": ["bilby/core/likelihood.py:GaussianLikelihood.log_likelihood,GaussianLikelihood.sigma,Analytical1DLikelihood.residual"]}
{"id": "C69", "title": "Poisson likelihood", "statement": "With positive rates the exponential of PoissonLikelihood.log_likelihood is the product of the Poisson probabilities, which add up to one over all counts; rates equal to the counts maximise it. It raises exactly if a rate is negative, and is -inf exactly if no rate is negative and one is zero, also where the observed count is zero and the true probability is one.", "quantifier": "all rates and counts of any length", "why_tests_cant": "Infinite sum over counts; all reals.", "anchors": ["bilby/core/likelihood.py:PoissonLikelihood.log_likelihood"]}
{"id": "C70", "title": "Exponential likelihood", "statement": "With positive means the exponential of ExponentialLikelihood.log_likelihood is the product of the exponential densities, which integrate to one; means equal to the data maximise it. It is -inf exactly if a mean is negative and nan exactly if none is negative and one is zero; it never raises.", "quantifier": "all means and data of any length", "why_tests_cant": "All reals; improper integral.", "anchors": ["bilby/core/likelihood.py:ExponentialLikelihood.log_likelihood"]}
{"id": "C71", "title": "Student's t likelihood", "statement": "Multiplying data and scale by c>0 lowers StudentTLikelihood.log_likelihood by n*ln(c). It is even in the residuals and does not increase when residuals grow in size. With one degree of freedom it is the Cauchy density of scale |sigma|. It raises exactly if nu<=0 or sigma=0.", "quantifier": "all residuals, nu and sigma", "why_tests_cant": "All reals.", "anchors": ["bilby/core/likelihood.py:StudentTLikelihood.log_likelihood,StudentTLikelihood.lam,StudentTLikelihood.nu"]}
{"id": "C72", "title": "Multinomial likelihood", "statement": "For probabilities inside the simplex the exponential of Multinomial.log_likelihood is the multinomial probability; over all ways to distribute N objects these add up to one; the observed frequencies maximise it; the noise likelihood is that of equal probabilities. Data of another length than the number of classes raise. Probabilities that add up to more than one give nan exactly if the last class occurs in the data, otherwise a number.", "quantifier": "all numbers of classes, counts and probabilities", "why_tests_cant": "Sum over all compositions of N; all reals.", "anchors": ["bilby/core/likelihood.py:Multinomial.log_likelihood,Multinomial.noise_log_likelihood,Multinomial._multinomial_ln_pdf"]}
{"id": "C73", "title": "Joint likelihood shares its parameters", "statement": "JointLikelihood leaves the likelihoods it was given untouched, at construction and under any later in-place change of its parameters. Its parameters are the union of theirs, the last one winning. After any sequence of in-place changes every part uses the current parameters, and log_likelihood and noise_log_likelihood are the sums over the parts; one part at minus infinity makes the joint value minus infinity. Assigning a new dictionary to parameters, or new likelihoods to the likelihoods attribute, breaks the sharing.", "quantifier": "all lists of likelihoods, all aliasing of their dictionaries, all sequences of updates", "why_tests_cant": "Object aliasing over unbounded histories.", "anchors": ["bilby/core/likelihood.py:JointLikelihood"]}
{"id": "C74", "title": "Gaussian family of priors", "statement": "For Gaussian, TruncatedGaussian, HalfGaussian and LogNormal with sigma>0, prob is a density of total mass one, cdf its distribution function, and rescale the exact inverse transform, staying inside the declared range with the end points at 0 and 1. ln_prob is the logarithm of prob. A log-normal variable is the exponential of a Gaussian one; the half Gaussian has twice the Gaussian density. A Gaussian accepts sigma<0 and then has a negative prob but a finite ln_prob.", "quantifier": "all mu, sigma, bounds and arguments", "why_tests_cant": "Needs the Gaussian integral; all reals.", "anchors": ["bilby/core/prior/analytical.py:Gaussian,TruncatedGaussian,HalfGaussian,LogNormal"]}
{"id": "C75", "title": "Hyperparameter likelihood", "statement": "HyperparameterLikelihood keeps from every posterior the same number of its own samples, the size of the smallest or max_samples if less. With a PriorDict or a prior column, exp(log_likelihood_ratio) is the product over posteriors of the average of population density over sampling prior, at the current hyperparameters after any sequence of updates; the sampling prior itself gives 0. Without support for a posterior the result is minus the largest float; a sample where density and prior are both zero makes it 0. log_likelihood adds the log evidences and is nan without them. A sampling prior passed as a function is evaluated on the first posterior only and reused for all others.", "quantifier": "all posteriors, priors, population models and sequences of hyperparameters", "why_tests_cant": "Arbitrary data and unbounded histories of a cache.", "anchors": ["bilby/hyper/likelihood.py:HyperparameterLikelihood"]}
{"id": "C76", "title": "Caching of population models", "statement": "For fixed data Model.prob with caching returns, after any sequence of parameter updates and failed calls, the product of the model functions each at its own current parameters, as without caching. It raises exactly if a parameter of one of the functions is missing. Without caching this also holds when the data change; with caching, new data at unchanged parameters return the old values.", "quantifier": "all lists of functions, histories of updates and evaluations", "why_tests_cant": "Unbounded histories.", "anchors": ["bilby/hyper/model.py:Model.prob,Model._get_function_parameters"]}
{"id": "C77", "title": "Numerical derivatives", "statement": "derivatives returns one number per index, or raises exactly for too many, no or non-existent indices or wrong step arrays; with 0<=epsscale<1 and mineps>0 it ends. Each number is 0 or a central difference on which two successive step sizes agree; for a differentiable function it is 0 or the exact derivative within half the initial step. It is exact for functions quadratic in each value. For every such setting some function with derivative 1 gets 0.", "quantifier": "all functions, points, step settings and index lists", "why_tests_cant": "All real functions; a loop without fixed bound.", "anchors": ["bilby/core/utils/calculus.py:derivatives"]}
{"id": "C78", "title": "Fisher matrix", "statement": "calculate_FIM raises exactly if the sample lacks a parameter, is symmetric, and each entry is minus a second derivative of the log-likelihood within one step of the sample, exactly so for quadratic log-likelihoods. The shift in calculate_iFIM makes the inverse positive definite, changing only the diagonal. The likelihood's parameters are left one step away from the sample. get_maximum_likelihood_sample returns the last finite optimisation, not the best. sample_dataframe has the right means exactly if the sample lists its values in the order of the parameters.", "quantifier": "all log-likelihoods, samples, parameter lists and steps", "why_tests_cant": "All real functions; mean value theorems.", "anchors": ["bilby/core/fisher.py:FisherMatrixPosteriorEstimator"]}
{"id": "C79", "title": "Noise-weighted inner product and signal-to-noise ratios", "statement": "noise_weighted_inner_product raises exactly for arrays of different lengths; it is Hermitian, linear in the second argument and ignores bins with infinite PSD. For positive PSDs optimal_snr_squared is real and non-negative, zero exactly for signals vanishing wherever the PSD is finite, and the Cauchy-Schwarz inequality holds. The modulus of matched_filter_snr never exceeds the norm of the data and does not depend on amplitude or phase of the template; for data equal to c times the template it is c times the optimal SNR; it is nan exactly for templates with zero optimal SNR.", "quantifier": "all complex arrays, positive or infinite PSDs, durations", "why_tests_cant": "Universally quantified over arrays of any length.", "anchors": ["bilby/gw/utils.py:noise_weighted_inner_product,matched_filter_snr,optimal_snr_squared"]}
{"id": "C80", "title": "Overlap of two signals", "statement": "overlap is the real part of the noise-weighted inner product of the two signals over bins int(lower/df) up to int(upper/df)-1, divided by the norms. With the norms over the same bins it is symmetric, in [-1,1], and 1 for a signal with itself. Bins at or below lower-df, or above upper-df, have no influence; a bin below lower_cut_off can count and the bin at upper_cut_off does not. psd_from_freq_series is 4 df |x|^2 and asd_from_freq_series its square root.", "quantifier": "all arrays, PSDs, cut-offs >= 0 and df>0", "why_tests_cant": "All array lengths and cut-offs.", "anchors": ["bilby/gw/utils.py:overlap,asd_from_freq_series,psd_from_freq_series"]}
{"id": "C81", "title": "Frequency mask and frequency-domain strain", "statement": "For a strain object given data once, after any sequence of assignments to minimum_frequency, maximum_frequency, notch_list, roll_off and frequency_domain_strain and reads, entry k of frequency_mask is True exactly if k/T lies between the frequencies now in force, not above Nyquist, and strictly inside no notch; frequency_domain_strain is the newest data times that mask, so narrowing and widening the band loses nothing. Data given in the time domain use the roll-off of the first read. Giving data a second time, or appending to notch_list, keeps the old mask; reading maximum_frequency stores the Nyquist frequency for good.", "quantifier": "all operation sequences before and after the data, all data, sampling frequencies and durations of even product with at most 14 decimals", "why_tests_cant": "Unbounded histories of cached attributes.", "anchors": ["bilby/gw/detector/strain_data.py:InterferometerStrainData"]}
{"id": "C82", "title": "Time-domain strain", "statement": "Time-domain data read back as given through any settings and reads. After frequency_domain_strain is assigned, time_domain_strain is the inverse transform of the masked data; unwindowed data in an unlimited band survive the way to the frequency domain and back. set_from_time_domain_strain replaces both representations; set_from_frequency_domain_strain, set_from_power_spectral_density and set_from_zero_noise leave time-domain data the object held in place, and the latter two also its window_factor.", "quantifier": "all operation sequences and data", "why_tests_cant": "Unbounded histories; exact transform inversion for all lengths.", "anchors": ["bilby/gw/detector/strain_data.py:InterferometerStrainData.time_domain_strain"]}
{"id": "C83", "title": "Notches and the data of a PSD", "statement": "notch_list accepts exactly the lists of pairs (min,max) with 0<min<max and stores them in order; a frequency is in the list exactly if it is strictly inside one of them. A ready-made non-empty NotchList and a list in the documented order (max,min) raise, leaving the settings as they were. create_power_spectral_density never leaves out the analysis segment of data that start at a non-negative time.", "quantifier": "all lists, frequencies, times", "why_tests_cant": "All lists and real frequencies.", "anchors": ["bilby/gw/detector/strain_data.py:Notch,NotchList,InterferometerStrainData.notch_list,InterferometerStrainData.create_power_spectral_density"]}
{"id": "C84", "title": "Injection into strain data", "statement": "Injecting a signal of the right length succeeds after any history of settings and reads: inside the band the stored data become data plus signal, outside the signal alone, and the cached time-domain strain is dropped.", "quantifier": "all operation sequences, data and signals", "why_tests_cant": "Unbounded histories.", "anchors": ["bilby/gw/detector/interferometer.py:Interferometer.inject_signal_from_waveform_polarizations", "bilby/gw/detector/strain_data.py:InterferometerStrainData.frequency_domain_strain"]}
{"id": "C85", "title": "Detector geometry", "statement": "After any sequence of assignments and reads, vertex, x, y and detector_tensor equal those of an object just built with the attributes now in force, and angles read back in degrees as set. The vertex at elevation 0 lies on the Earth ellipsoid; elevation h moves it by h along the outward unit normal. The three parts of a TriangularInterferometer are turned by 240 degrees each, but for arms 60 degrees apart the next vertex is put opposite to the end of the y arm.", "quantifier": "all attribute values and operation sequences, all arm and tensor functions", "why_tests_cant": "Unbounded histories of four interdependent caches; identities over all angles.", "anchors": ["bilby/gw/detector/geometry.py:InterferometerGeometry", "bilby/gw/utils.py:get_vertex_position_geocentric", "bilby/gw/detector/networks.py:TriangularInterferometer"]}
{"id": "C86", "title": "Power spectral density object", "statement": "After any sequence of assignments, file loads and queries, a query returns the interpolation of the last accepted density at the frequencies asked for (amplitudes their square roots) and raises exactly before the first one; the cache never shows. psd_array and asd_array describe the same density; arrays of the wrong length are refused and change nothing; at its own frequencies the given array is returned, outside infinity. Noise realisations are zero outside and finite. asd_array wins over psd_array, files over arrays, asd_file over all. Reassigning frequency_array alone leaves the interpolation on the old frequencies, and noise may then be nan.", "quantifier": "all operation sequences, increasing frequencies, densities", "why_tests_cant": "Unbounded histories of a cache; arbitrary arrays.", "anchors": ["bilby/gw/detector/psd.py:PowerSpectralDensity"]}
{"id": "C87", "title": "Lists of interferometers", "statement": "Building an InterferometerList, append, extend and insert raise exactly if durations, start times or sampling frequencies are neither all equal nor all set and within the tolerance of the first; the tolerance is 1e-5 for values up to 1e4 but grows with the value, so GPS start times one second apart pass. A raising append leaves the detector in the list, and every later append or extend raises too. insert puts a detector where a python list would. A detector without data beside one with data gives a TypeError. meta_data keeps the last detector of each name.", "quantifier": "all lists and operations", "why_tests_cant": "All real values and list lengths.", "anchors": ["bilby/gw/detector/networks.py:InterferometerList"]}
{"id": "C88", "title": "Gaussian gravitational-wave likelihood", "statement": "Without marginalisation log_likelihood is minus half the sum over detectors of the noise-weighted squared residual in band; it is never positive, zero exactly if template and data agree wherever the density is finite, and adds over detectors. BasicGravitationalWaveTransient gives the same. The noise log-likelihood is computed at its first use and kept: later changes of the data enter the ratio only.", "quantifier": "all detectors, data, templates, densities and call sequences", "why_tests_cant": "Identities over all arrays and positive densities; unbounded histories of a cache.", "anchors": ["bilby/gw/likelihood/base.py:GravitationalWaveTransient", "bilby/gw/likelihood/basic.py:BasicGravitationalWaveTransient"]}
{"id": "C89", "title": "Time marginalisation", "statement": "With time marginalisation the likelihood is the sum over the grid times t_k of step times prior density times the likelihood of the template arriving at t_k, any other marginalisation included, except that the density is taken one step late, at t_k plus the step (so a narrow prior gets the value of a template outside it). It raises exactly if no shifted time lies in the prior's range. The highest frequency bin is ignored.", "quantifier": "all data, templates without content in the last bin, priors, jitters", "why_tests_cant": "Equality between an FFT and translated templates for all arrays; priors of any shape.", "anchors": ["bilby/gw/likelihood/base.py:GravitationalWaveTransient.time_marginalized_likelihood", "bilby/gw/likelihood/base.py:GravitationalWaveTransient._setup_time_marginalization"]}
{"id": "C90", "title": "Reconstruction of the arrival time", "statement": "The time drawn for a time marginalised run is weighted with prior times likelihood to the power duration/4: the posterior for four seconds of data, too broad for less, too narrow for more. The times offered lie in the data segment and carry the weight of the template arriving then.", "quantifier": "all data, templates, priors, durations", "why_tests_cant": "The error is invisible at the duration used in the tests.", "anchors": ["bilby/gw/likelihood/base.py:GravitationalWaveTransient.generate_time_sample_from_marginalized_likelihood"]}
{"id": "C91", "title": "Phase marginalisation", "statement": "The phase marginalised likelihood is the mean over phi in [0, 2 pi] of the likelihoods of the templates multiplied by e^{2 i phi} (equally e^{-2 i phi}); it does not depend on the phase of the template and lies between the values at zero match and at the best phase. The reconstructed phase is weighted with the likelihood of the template times e^{+2 i phi}, which is the mirror image of the documented convention.", "quantifier": "all data and templates", "why_tests_cant": "An integral identity for every complex number.", "anchors": ["bilby/gw/likelihood/base.py:GravitationalWaveTransient.phase_marginalized_likelihood", "bilby/gw/likelihood/base.py:GravitationalWaveTransient.generate_phase_sample_from_marginalized_likelihood", "bilby/gw/utils.py:ln_i0"]}
{"id": "C92", "title": "Distance marginalisation", "statement": "Where the interpolation of the table is exact, the distance marginalised likelihood is the prior-weighted mean over the distance grid of the likelihoods of the template moved to each distance, phase marginalised or not, whatever the reference distance. Reconstruction weighs each distance with prior times likelihood. Templates weaker than the table's range get likelihood zero instead of nearly one.", "quantifier": "all data, templates, distance priors and reference distances", "why_tests_cant": "Identity for all priors and templates.", "anchors": ["bilby/gw/likelihood/base.py:GravitationalWaveTransient.distance_marginalized_likelihood", "bilby/gw/likelihood/base.py:GravitationalWaveTransient._create_lookup_table", "bilby/gw/likelihood/base.py:GravitationalWaveTransient._setup_rho"]}
{"id": "C93", "title": "Choice of the distance table", "statement": "A stored distance table given by file name is used exactly if distances, prior densities, reference distance and phase flag agree within 1e-8 plus 1e-15 of the value (mostly an absolute tolerance, so small densities always agree), otherwise a new one is computed; a file written with the same settings is accepted. A table passed as a dictionary is used even if it was made for other settings.", "quantifier": "all tables and settings of fitting array lengths", "why_tests_cant": "All real contents of the stored arrays.", "anchors": ["bilby/gw/likelihood/base.py:GravitationalWaveTransient._setup_distance_marginalization", "bilby/gw/likelihood/base.py:GravitationalWaveTransient._test_cached_lookup_table"]}
{"id": "C94", "title": "Calibration marginalisation", "statement": "The calibration marginalised likelihood is the mean over the response curves of the likelihood of the template multiplied by the curve, with phase, distance or time marginalisation inside; curves are drawn with probability proportional to their likelihood. With time and distance marginalisation together the evaluation raises unless there is one curve or as many as times. After a draw the index stays in the parameters and the likelihood can no longer be evaluated.", "quantifier": "all curves, data, templates and other settings", "why_tests_cant": "Identity for all arrays.", "anchors": ["bilby/gw/likelihood/base.py:GravitationalWaveTransient.calibration_marginalized_likelihood", "bilby/gw/likelihood/base.py:GravitationalWaveTransient.generate_calibration_sample_from_marginalized_likelihood"]}
{"id": "C95", "title": "Calibration spline", "statement": "For four or more nodes CubicSpline's linear system has exactly one solution; the spline goes through the node values at frequencies spaced evenly in log between the two limits, is twice continuously differentiable in log frequency everywhere, and reproduces cubic polynomials exactly. Below the third node, above the third last, and outside the range it is a single cubic each, so it is extrapolated without limit. The factor has modulus |1 + A| and phase 2 arctan(phi/2), which differs from phi by at most |phi|^3/12.", "quantifier": "all numbers of nodes, node values and frequencies", "why_tests_cant": "Existence, uniqueness and smoothness for every number of nodes.", "anchors": ["bilby/gw/detector/calibration.py:CubicSpline"]}
{"id": "C96", "title": "Parameters kept by the calibration spline", "statement": "A call of get_calibration_factor that gives every parameter depends on that call only. A parameter left out keeps the value of the latest call that gave it, without an error; KeyError is raised exactly if some parameter was never given. The constructor raises exactly for fewer than four nodes.", "quantifier": "all sequences of calls with well-formed names", "why_tests_cant": "Unbounded call histories of a stateful object.", "anchors": ["bilby/gw/detector/calibration.py:Recalibrate.set_calibration_parameters", "bilby/gw/detector/calibration.py:CubicSpline.get_calibration_factor"]}
{"id": "C97", "title": "Precomputed calibration curves", "statement": "Precomputed returns the curve with the given number, counting from the end for negative numbers, raises IndexError outside, ValueError if the frequencies differ, and TypeError (not the KeyError written in the code) without the index.", "quantifier": "all curves, grids and parameters", "why_tests_cant": "All integers and grids.", "anchors": ["bilby/gw/detector/calibration.py:Precomputed"]}
{"id": "C98", "title": "Calibration lookup tables", "statement": "A file written by write_calibration_file gives back the curves starting_index, ... (fewer if the file has fewer), and one outside its frequencies, but its whole parameter table whatever the starting index. build_calibration_lookup removes the calibration model of every interferometer it has dealt with; precomputed models give curves start..start+n-1 with their numbers or IndexError; generated curves ignore starting_index and the frequency range of the interferometer's spline, and the next run reads exactly the same curves if it starts at zero.", "quantifier": "all tables, frequencies, models and argument values", "why_tests_cant": "Any number of detectors and curves; state left behind for the next run.", "anchors": ["bilby/gw/detector/calibration.py:read_calibration_file", "bilby/gw/detector/calibration.py:write_calibration_file", "bilby/gw/detector/calibration.py:build_calibration_lookup", "bilby/gw/detector/calibration.py:_generate_calibration_draws", "bilby/gw/detector/calibration.py:curves_from_spline_and_prior"]}
{"id": "C99", "title": "Cache of the waveform generator", "statement": "As long as times and frequencies stay, no returned waveform is edited and the two source models differ, every call of frequency_domain_strain or time_domain_strain returns what it would without the cache, after any calls, new parameters, or edits of parameters and waveform_arguments. After a new duration, sampling frequency, start time or array a call with equal parameters still returns the old waveform; an edited waveform is returned edited; with one function for both domains the second domain gets the first one's waveform. A time-domain model returning a plain array gives a pair.", "quantifier": "all source models, conversions, parameters and operation sequences", "why_tests_cant": "Cache transparency over unbounded histories.", "anchors": ["bilby/gw/waveform_generator.py:WaveformGenerator._calculate_strain", "bilby/gw/waveform_generator.py:WaveformGenerator.frequency_domain_strain", "bilby/gw/waveform_generator.py:WaveformGenerator.time_domain_strain"]}
{"id": "C100", "title": "Parameters of the waveform generator", "statement": "The source model receives the waveform_arguments and those converted parameters it names, nothing else, waveform_arguments winning over parameters of the same name. KeyError is raised exactly if the converted parameters lack an argument of the model; refused parameters change nothing. Changed waveform_arguments have no effect on calls without parameters. Without arrays, parameters or models the calls raise ValueError, AttributeError.", "quantifier": "all dictionaries, conversions and states", "why_tests_cant": "Quantifies over all dictionaries and conversion functions.", "anchors": ["bilby/gw/waveform_generator.py:WaveformGenerator.parameters", "bilby/gw/waveform_generator.py:WaveformGenerator.__init__"]}
{"id": "C101", "title": "Chirp mass and mass ratio uniform in component masses", "statement": "Drawing the chirp mass from UniformInComponentsChirpMass and the mass ratio from UniformInComponentsMassRatio gives a density in the two component masses that is constant wherever both are in range: the product of the two densities, divided by the Jacobian m1^2/chirp_mass of the code's own conversion, does not depend on the point.", "quantifier": "all positive ranges and points", "why_tests_cant": "An identity of densities at every point, involving the Jacobian of a conversion.", "anchors": ["bilby/gw/prior.py:UniformInComponentsChirpMass", "bilby/gw/prior.py:UniformInComponentsMassRatio", "bilby/gw/conversion.py:chirp_mass_and_mass_ratio_to_component_masses"]}
{"id": "C102", "title": "Mass-ratio prior of component-uniform masses", "statement": "Inside its range the cumulative distribution of UniformInComponentsMassRatio is the integral of its density, runs from 0 to 1 and increases; outside the range it is below 0 or above 1. Rescaling a uniform number has that distribution, with equal_mass as well, but with equal_mass it is not the inverse of the cumulative distribution (except at 0 and 2/3).", "quantifier": "all ranges within the domain of the hypergeometric function and all arguments", "why_tests_cant": "Needs the antiderivative identity of a hypergeometric series.", "anchors": ["bilby/gw/prior.py:UniformInComponentsMassRatio"]}
{"id": "C103", "title": "Aligned and in-plane spins", "statement": "With uniform magnitude and isotropic tilt AlignedSpin's integral is ln(amax/|chi|)/(2 amax). That density times ConditionalChiUniformSpinMagnitude's or ConditionalChiInPlane's is, after the change of variables to magnitude and cosine of the tilt, the product of the uniform densities; the marginal of the magnitude is uniform.", "quantifier": "all magnitudes below amax and all tilts with non-zero cosine", "why_tests_cant": "Equality of joint densities at every point.", "anchors": ["bilby/gw/prior.py:AlignedSpin", "bilby/gw/prior.py:ConditionalChiUniformSpinMagnitude", "bilby/gw/prior.py:ConditionalChiInPlane"]}
{"id": "C104", "title": "In-plane spin prior and aligned range", "statement": "ConditionalChiInPlane's density is non-negative, integrates to one over [0, maximum], its cumulative distribution is the integral of the density on that range and rescale is its two-sided inverse, with total spin at most amax; above the maximum the cumulative distribution is 0. AlignedSpin tabulates exactly the range of the products if the tilts include 0, and misses part of it otherwise.", "quantifier": "all amax, aligned components and arguments", "why_tests_cant": "Normalisation and inversion for all real conditions.", "anchors": ["bilby/gw/prior.py:ConditionalChiInPlane", "bilby/gw/prior.py:AlignedSpin.__init__"]}
{"id": "C105", "title": "Mass limits of binary prior dictionaries", "statement": "Every binary whose parameters lie within the ranges of the priors has a chirp mass between minimum_chirp_mass and maximum_chirp_mass, and component masses at least minimum_component_mass (for the heavier one if the mass ratio is at most 1). For component mass priors the chirp mass limits are those of the extreme corners.", "quantifier": "all prior ranges with positive limits and all binaries within them", "why_tests_cant": "A bound over all points of the prior.", "anchors": ["bilby/gw/prior.py:CBCPriorDict.minimum_chirp_mass", "bilby/gw/prior.py:CBCPriorDict.maximum_chirp_mass", "bilby/gw/prior.py:CBCPriorDict.minimum_component_mass"]}
{"id": "C106", "title": "Redundancy test of prior dictionaries", "statement": "If every new key is added only after test_redundancy answers False, then after any additions no group of related parameters (masses, spins, inclination, reference frame, distance, tidal) has more sampled members than its number of degrees of freedom. Keys already present are redundant, keys outside the groups are not. Fixed and constrained entries are not counted, so a fully fixed group still accepts new members, and mass_ratio with symmetric_mass_ratio count as two masses.", "quantifier": "all dictionaries and sequences of additions, for BBHPriorDict and BNSPriorDict", "why_tests_cant": "An invariant over unbounded sequences of additions.", "anchors": ["bilby/gw/prior.py:BBHPriorDict.test_redundancy", "bilby/gw/prior.py:BNSPriorDict.test_redundancy"]}
{"id": "C107", "title": "Conversion to flat in component masses", "statement": "convert_to_flat_in_component_mass_prior weights each sample by the uniform densities of the component masses over the old density of chirp mass and mass ratio, both taken as densities of the component masses, so samples of a prior already flat in component masses get equal weights. It replaces the priors of the result passed in, so a second call on it weights by the Jacobian alone.", "quantifier": "all priors and samples", "why_tests_cant": "A relation between weights at every sample and a side effect on the input.", "anchors": ["bilby/gw/prior.py:convert_to_flat_in_component_mass_prior", "bilby/core/result.py:get_weights_for_reweighting"]}
{"id": "C108", "title": "Limits of cosmological priors", "statement": "For redshift priors and distance priors in Mpc, after any assignments to minimum and maximum the prior has the limits last assigned, the redshift, luminosity distance and comoving distance limits kept inside describe the same redshifts, and the tabulated densities cover the whole range. get_corresponding_prior keeps the redshift range, and converting back gives the original limits.", "quantifier": "all cosmologies with increasing distances, all non-negative limits and assignment sequences", "why_tests_cant": "An invariant over unbounded sequences of assignments and all cosmologies.", "anchors": ["bilby/gw/prior.py:Cosmological._set_limit", "bilby/gw/prior.py:Cosmological.minimum", "bilby/gw/prior.py:Cosmological.maximum", "bilby/gw/prior.py:Cosmological.get_corresponding_prior"]}
{"id": "C109", "title": "Units of cosmological priors", "statement": "With a unit other than Mpc the limits of a distance prior are compared with tables in Mpc: the minimum becomes max(0.99-redshift distance in Mpc, minimum) and the maximum the minimum of the two, so for large units the range is reversed (990 to 5 for a range of 1 to 5 Gpc). get_corresponding_prior with a unit takes the Mpc limits as numbers in that unit.", "quantifier": "all units, limits and cosmologies", "why_tests_cant": "Exact limits for every cosmology and unit.", "anchors": ["bilby/gw/prior.py:Cosmological.__init__", "bilby/gw/prior.py:Cosmological.get_corresponding_prior", "bilby/core/prior/interpolated.py:Interped.__init__"]}
{"id": "C110", "title": "Default cosmology", "statement": "get_cosmology without argument returns Planck15 whatever set_cosmology was called with before; with an instance or a name it returns that cosmology, and asking does not change later answers. set_cosmology stores the cosmology of its last call, Planck15 if called without argument. A dictionary, understood by set_cosmology, is handed back unchanged by get_cosmology.", "quantifier": "all sequences of set_cosmology calls", "why_tests_cant": "Module-level state over unbounded call histories.", "anchors": ["bilby/gw/cosmology.py:get_cosmology", "bilby/gw/cosmology.py:set_cosmology"]}
{"id": "C111", "title": "Log prior with joint distributions", "statement": "PriorDict.ln_prob adds, whatever the order of the keys, the log densities of the independent parameters and for each joint distribution its log density at the values of its parameters, counted once, and leaves the distributions ready for the next evaluation. If an earlier evaluation left out parameters, or raised because of unequal lengths, the leftover values change later results: after one incomplete call each following call combines parameters of two samples.", "quantifier": "all dictionaries with any number of joint distributions, all samples and call sequences", "why_tests_cant": "Shared mutable state over unbounded call histories and all key orders.", "anchors": ["bilby/core/prior/joint.py:JointPrior.ln_prob", "bilby/core/prior/joint.py:BaseJointPriorDist.filled_request", "bilby/core/prior/joint.py:BaseJointPriorDist.reset_request", "bilby/core/prior/dict.py:PriorDict.ln_prob"]}
{"id": "C112", "title": "Rescaling with joint distributions", "statement": "PriorDict.rescale gives the rescaled vector in key order, with the joint distribution's result in place, if the parameters of the joint distribution are requested next to each other in the distribution's own order. In another order the joint result is returned in the distribution's order, so values are assigned to the wrong keys; with other keys in between, the joint values come after them.", "quantifier": "all dictionaries with one joint distribution, all key orders and unit-cube points", "why_tests_cant": "An ordering property for all key lists.", "anchors": ["bilby/core/prior/joint.py:JointPrior.rescale", "bilby/core/prior/joint.py:BaseJointPriorDist.filled_rescale", "bilby/core/prior/dict.py:PriorDict.rescale"]}
{"id": "C113", "title": "Drawing joint parameters", "statement": "If each parameter of a joint distribution is sampled once, in any order, all values come from the same draw, of the size asked for first, and the next round starts a new draw. In an unfinished round every further call, whatever size it asks for, returns the old draw.", "quantifier": "all distributions, orders and sizes", "why_tests_cant": "Shared state over sequences of calls.", "anchors": ["bilby/core/prior/joint.py:JointPrior.sample", "bilby/core/prior/joint.py:BaseJointPriorDist.sample", "bilby/core/prior/joint.py:BaseJointPriorDist.reset_sampled"]}
{"id": "C114", "title": "Bounds of joint distributions", "statement": "For one sample the bounds check flags it exactly if some parameter is outside its bounds. For several samples a flagged sample is outside, and none is flagged exactly if all are inside; but only the first parameter with a violation decides, so a sample violating a later parameter is not flagged and keeps a finite density.", "quantifier": "all sample arrays and bounds", "why_tests_cant": "All arrays of samples, with interactions between rows.", "anchors": ["bilby/core/prior/joint.py:BaseJointPriorDist._check_samp", "bilby/core/prior/joint.py:BaseJointPriorDist.ln_prob"]}
{"id": "C115", "title": "Parameters of a Gaussian mode", "statement": "From a covariance matrix add_mode derives standard deviations and a correlation matrix with unit diagonal that give the covariance back, symmetric if it was; from correlations and standard deviations it derives the covariance s_i s_j r_ij; the two are inverse to each other. Standard deviations without correlations (documented as uncorrelated) or correlations without standard deviations are ignored and give the unit covariance.", "quantifier": "all dimensions and matrices with positive variances", "why_tests_cant": "Matrix identities in every dimension.", "anchors": ["bilby/core/prior/joint.py:MultivariateGaussianDist.add_mode"]}
{"id": "C116", "title": "Covariance of rescaled Gaussian numbers", "statement": "The map from independent standard normal numbers to the parameters is affine, with the mode's mean and, if the correlation matrix has pairwise different eigenvalues, exactly the mode's covariance. With a repeated eigenvalue the unit eigenvectors of numpy.linalg.eig need not be orthogonal: for three parameters with correlation 1/2 the variance of the first can be 7/6 instead of 1.", "quantifier": "all dimensions, correlation matrices and eigen-decompositions allowed by numpy's contract", "why_tests_cant": "A statement for every dimension and every admissible eigenvector choice.", "anchors": ["bilby/core/prior/joint.py:MultivariateGaussianDist._rescale", "bilby/core/prior/joint.py:MultivariateGaussianDist.add_mode"]}
{"id": "C117", "title": "Weights of Gaussian modes", "statement": "A draw uses mode k exactly if the uniform number falls in an interval of length weight k over the sum of weights. The density is the plain sum over modes, the number of modes times the equal-weight mixture, so with unequal weights it is not proportional to the density of the draws.", "quantifier": "all weights, modes and points", "why_tests_cant": "A comparison of two distributions for all weights.", "anchors": ["bilby/core/prior/joint.py:MultivariateGaussianDist._sample", "bilby/core/prior/joint.py:MultivariateGaussianDist._ln_prob"]}
{"id": "C118", "title": "Density of sky-map priors", "statement": "A map is normalised to pixel probabilities adding to one. For one sample within the bounds ln_prob is the logarithm of the pixel's probability over its area, times distance squared and the distance density if there is one. For several samples every sample within bounds gets the value of the first sample. The value is per solid angle: for a flat map its integral over ra and dec is pi/2, and one only with the factor cos(dec).", "quantifier": "all maps, pixelisations and samples", "why_tests_cant": "An integral and a statement for arrays of any length.", "anchors": ["bilby/gw/prior.py:HealPixMapPriorDist._ln_prob", "bilby/gw/prior.py:HealPixMapPriorDist._check_norm"]}
{"id": "C119", "title": "Pixels of rescaled sky-map samples", "statement": "rescale sends exactly an interval of the unit interval to pixel k, of length (p(k-1) + 2 p(k) + p(k+1)) / (4 T), with only the inner neighbour at the ends and T the sum of the p less half the first and last: the map's probability mixed with those of the neighbouring pixel numbers, not p(k). For the map 1,1,6,1,1 the middle pixel gets 14/36 instead of 6/10.", "quantifier": "all positive maps and all numbers of the unit interval", "why_tests_cant": "An exact probability for every map.", "anchors": ["bilby/gw/prior.py:HealPixMapPriorDist._rescale", "bilby/gw/prior.py:HealPixMapPriorDist._build_attributes"]}
{"id": "C120", "title": "Points and distances of sky-map samples", "statement": "draw_from_pixel returns exactly if the pixel's centre is inside pixel and bounds, else its recursion never ends; the point is anywhere in a square of twice the pixel side and may lie outside pixel and bounds. Rescaled rows hold one sample each without distance or for one sample; with distance and several samples the rows mix values of different samples. The distance transform fails exactly below its first cumulative value, which is zero only if the distance grid starts at zero, and otherwise stays on the grid. A distance drawn outside the bounds is not redrawn: None is returned.", "quantifier": "all pixelisations, random numbers, distance densities and grids", "why_tests_cant": "Termination, all random streams and arrays of any length.", "anchors": ["bilby/gw/prior.py:HealPixMapPriorDist.draw_from_pixel", "bilby/gw/prior.py:HealPixMapPriorDist.draw_distance", "bilby/gw/prior.py:HealPixMapPriorDist.update_distance", "bilby/gw/prior.py:HealPixMapPriorDist._rescale", "bilby/gw/prior.py:HealPixMapPriorDist.check_in_pixel"]}
{"id": "C121", "title": "Constant-uncertainty calibration priors", "statement": "constant_uncertainty_spline gives 3n entries with different names: zero-mean Gaussians for amplitudes and phases and fixed frequencies at the nodes of the spline model of the same band. Used with a sample of these priors, the CubicSpline model of the same label gives at the i-th drawn frequency exactly the factor of the i-th drawn amplitude and phase.", "quantifier": "all labels, bands, node numbers and samples", "why_tests_cant": "Agreement of two components for every configuration and sample.", "anchors": ["bilby/gw/prior.py:CalibrationPriorDict.constant_uncertainty_spline", "bilby/gw/detector/calibration.py:CubicSpline.get_calibration_factor"]}
{"id": "C122", "title": "Calibration priors from an envelope", "statement": "from_envelope_file gives at a node lying on a frequency of the file a Gaussian with the median of that line (amplitude minus one) and half the width of its 1-sigma interval. A file with median one and zero and constant widths gives the same dictionary as constant_uncertainty_spline.", "quantifier": "all envelope files and node numbers", "why_tests_cant": "Agreement of two constructors for all inputs.", "anchors": ["bilby/gw/prior.py:CalibrationPriorDict.from_envelope_file", "bilby/gw/prior.py:CalibrationPriorDict.constant_uncertainty_spline"]}
{"id": "C123", "title": "Relative-binning bins", "statement": "The phase measure strictly grows with frequency. setup_bins gives edges that start at the first and end at the last frequency of the band, strictly increase, and within each bin, its upper edge excluded, the measure grows by less than the total over the number of bins asked for, less than twice epsilon. If the total is less than epsilon, and only then, it fails with a division by zero.", "quantifier": "all bands, epsilon, chi and frequency arrays", "why_tests_cant": "An error bound for every bin of every band.", "anchors": ["bilby/gw/likelihood/relative.py:RelativeBinningGravitationalWaveTransient.setup_bins"]}
{"id": "C124", "title": "Relative-binning inner products", "statement": "Both inner products belong to one waveform, the fiducial one times a ratio linear in every bin, each position from first to last edge counted once: the data product is exact for it and the power is too small by the non-negative sum of second moments. For a ratio constant in frequency, the fiducial waveform included, both are exact. In the last bin that waveform differs from the one returned on all frequencies by the slope times half a frequency step, so a linear ratio is not exact. If the bins reach the last frequency of the detector's band, the set-up fails with an IndexError.", "quantifier": "all data, spectra, fiducial waveforms, signals and bins", "why_tests_cant": "Exact algebraic identities for arbitrary arrays.", "anchors": ["bilby/gw/likelihood/relative.py:RelativeBinningGravitationalWaveTransient.compute_summary_data", "bilby/gw/likelihood/relative.py:RelativeBinningGravitationalWaveTransient.calculate_snrs", "bilby/gw/likelihood/relative.py:RelativeBinningGravitationalWaveTransient.compute_waveform_ratio_per_interferometer"]}
{"id": "C125", "title": "Relative-binning full waveform", "statement": "The waveform returned on all frequencies equals the requested one at every bin edge, is zero outside the band, and equals it everywhere in the band if the ratio to the fiducial waveform is linear in frequency.", "quantifier": "all fiducial waveforms, signals and bins", "why_tests_cant": "Interpolation identity for every position.", "anchors": ["bilby/gw/likelihood/relative.py:RelativeBinningGravitationalWaveTransient._compute_full_waveform", "bilby/gw/likelihood/relative.py:RelativeBinningGravitationalWaveTransient.compute_waveform_ratio_per_interferometer"]}
{"id": "C126", "title": "Search for fiducial parameters", "statement": "find_maximum_likelihood_parameters runs between one and the given number of optimisations; all but the last raised the likelihood ratio by at least 0.1, and it ends early only after a smaller rise. The parameters of the last optimisation are returned even if they are worse than all earlier ones.", "quantifier": "all optimisers and likelihoods", "why_tests_cant": "All sequences of optimiser results.", "anchors": ["bilby/gw/likelihood/relative.py:RelativeBinningGravitationalWaveTransient.find_maximum_likelihood_parameters"]}
{"id": "C127", "title": "Multi-banding: frequency bands", "statement": "_dtaudf is the derivative of _tau. Up to the default maximum banding frequency the search condition, once true, stays true. The bisection ends, and the frequency found is within 0.01/duration of one that satisfies the conditions and of one that does not; no band is found only if no frequency satisfies them; with an accuracy factor of at least 0.01 it cannot fail with an unset variable. Band durations halve, starting frequencies strictly increase and stay below the maximum frequencies, and a band's taper starts less than 0.01/duration before the start of the band before. The stored maximum banding frequency passes the setter unchanged when weights are loaded.", "quantifier": "all masses, modes, offsets, accuracy factors, durations and frequency limits", "why_tests_cant": "A calculus fact and a search over a continuum.", "anchors": ["bilby/gw/likelihood/multiband.py:MBGravitationalWaveTransient._find_starting_frequency", "bilby/gw/likelihood/multiband.py:MBGravitationalWaveTransient._setup_frequency_bands", "bilby/gw/likelihood/multiband.py:MBGravitationalWaveTransient.maximum_banding_frequency", "bilby/gw/likelihood/multiband.py:MBGravitationalWaveTransient._tau", "bilby/gw/likelihood/multiband.py:MBGravitationalWaveTransient._dtaudf"]}
{"id": "C128", "title": "Multi-banding: windows", "statement": "Each entry of the window array is the rise of its band minus the rise of the next at that frequency, and the windows of all bands add up to one at every frequency of the band, unless a taper begins before the start of the band before; at frequencies in such an overlap the sum exceeds one.", "quantifier": "all lists of bands, durations and frequency indices", "why_tests_cant": "Partition of unity for every configuration and frequency.", "anchors": ["bilby/gw/likelihood/multiband.py:MBGravitationalWaveTransient._get_window_sequence"]}
{"id": "C129", "title": "Multi-banding: optimal SNR by linear interpolation", "statement": "The quadratic coefficients count every original frequency of a band once, weighted by window over spectrum times the straight line through the squared waveform at the two neighbouring banded frequencies. Over all bands, each with at least two banded frequencies, the result for a squared waveform linear in frequency is exactly the inner product over the frequency mask.", "quantifier": "all spectra, masks, bands and waveforms", "why_tests_cant": "Exactness of an approximation on a whole function space.", "anchors": ["bilby/gw/likelihood/multiband.py:MBGravitationalWaveTransient._setup_quadratic_coefficients_linear_interp", "bilby/gw/likelihood/multiband.py:MBGravitationalWaveTransient.calculate_snrs"]}
{"id": "C130", "title": "Multi-banding: numbers of samples", "statement": "The number of samples of a band is a power of two, at least 2(f T + 1) for the band's end f, and less than twice that unless it is 2^b; it is divisible by 2^b, does not decrease from band to band, and the band's last index lies within the transform of the shortened data.", "quantifier": "all bands, durations and frequencies", "why_tests_cant": "Array bounds for every configuration.", "anchors": ["bilby/gw/likelihood/multiband.py:MBGravitationalWaveTransient._setup_integers", "bilby/core/utils/calculus.py:round_up_to_power_of_two"]}
{"id": "C131", "title": "ROQ: interpolation in time", "statement": "With equally spaced time samples s_k the matched filter at time t is interpolated from five samples exactly when s_2 <= t < s_(n-2), and is -inf otherwise. It equals the stored value at a sample, tends to it from the left, and is exact for every cubic polynomial of time (not for quartics). The array version used by time marginalization gives the same number at every such time; at other times it reads samples from the other end of the array instead of answering -inf.", "quantifier": "all sample values, spacings and times", "why_tests_cant": "Exactness on a function space, and agreement of two implementations at every time.", "anchors": ["bilby/gw/likelihood/roq.py:ROQGravitationalWaveTransient._closest_time_indices", "bilby/gw/likelihood/roq.py:ROQGravitationalWaveTransient._interp_five_samples", "bilby/gw/likelihood/roq.py:ROQGravitationalWaveTransient._calculate_d_inner_h_array", "bilby/gw/likelihood/roq.py:ROQGravitationalWaveTransient.calculate_snrs"]}
{"id": "C132", "title": "ROQ: the time samples cover the prior", "statement": "The time step never exceeds the resolution asked for, the number of steps is a power of two and larger than the position of every frequency. For every time in the prior shifted by at most the light crossing time of the Earth the likelihood is interpolated, never -inf, if the data contain the prior with its margin (near the edge of the data it can be -inf). The grid of the time marginalization is at least as fine as requested, its equal cells fill the prior range exactly, and jittered times stay in the prior.", "quantifier": "all priors, delays, resolutions and times", "why_tests_cant": "Quantifies over every time and configuration.", "anchors": ["bilby/gw/likelihood/roq.py:ROQGravitationalWaveTransient._get_time_resolution", "bilby/gw/likelihood/roq.py:ROQGravitationalWaveTransient._set_weights", "bilby/gw/likelihood/roq.py:ROQGravitationalWaveTransient._setup_time_marginalization"]}
{"id": "C133", "title": "ROQ: weights reproduce the inner products", "statement": "If the basis reproduces the waveform at every frequency from its values at the nodes, the ROQ inner product at time sample n is exactly 4/T times the sum over the shared frequencies of conj(h(f) exp(-2 pi i f t_n)) d(f) / S(f), with the one buffer reused for all basis elements; if the real parts of the quadratic basis reproduce |h|^2, the ROQ value is exactly 4/T times the sum of |h|^2 / S.", "quantifier": "all data, spectra, bases, index sets and time samples", "why_tests_cant": "Exactness for every basis and data set; tests compare one basis to a tolerance.", "anchors": ["bilby/gw/likelihood/roq.py:ROQGravitationalWaveTransient._set_weights_linear", "bilby/gw/likelihood/roq.py:ROQGravitationalWaveTransient._set_weights_quadratic", "bilby/gw/likelihood/roq.py:ROQGravitationalWaveTransient.calculate_snrs"]}
{"id": "C134", "title": "ROQ: unique frequency nodes", "statement": "The unique frequency nodes are those of the linear and the quadratic basis, each once and increasing; the stored indices recover the linear and the quadratic nodes in their own order.", "quantifier": "all lists of nodes", "why_tests_cant": "All node sets, with repetitions and any order.", "anchors": ["bilby/gw/likelihood/roq.py:ROQGravitationalWaveTransient._set_unique_frequency_nodes_and_inverse"]}
{"id": "C135", "title": "ROQ: choice of the basis", "statement": "With several bases the one used is the first whose ranges contain the parameters, and an IndexError means none does. Selecting bases by the prior keeps exactly those whose ranges all meet the prior, so none that a prior point needs is dropped. The check at construction does not exclude gaps between ranges; for one parameter without gaps every point that passes has a basis. The cached basis numbers are those the current parameters call for over any sequence of readings without an IndexError; after a failed quadratic look-up the linear number of the failed point is given for the point before.", "quantifier": "all ranges, parameters and sequences of readings", "why_tests_cant": "Cache coherence over all sequences, and selection over all ranges.", "anchors": ["bilby/gw/likelihood/roq.py:ROQGravitationalWaveTransient._select_prior_ranges", "bilby/gw/likelihood/roq.py:ROQGravitationalWaveTransient._update_basis", "bilby/gw/likelihood/roq.py:ROQGravitationalWaveTransient._verify_prior_ranges", "bilby/gw/likelihood/roq.py:ROQGravitationalWaveTransient.basis_number_linear", "bilby/gw/likelihood/roq.py:ROQGravitationalWaveTransient.basis_number_quadratic"]}
{"id": "C136", "title": "ROQ: saving and loading weights", "statement": "Loading an HDF5 file under any prior gives, alike for ranges, nodes and every interferometer, the entries of the bases that meet the prior, in order; if all meet it, as after construction with the same prior, loading gives back what was saved. npz and json keep the weights of the single basis but lose nodes and ranges. If the name does not contain the format, the name written has it as extension and loading recognises it; a name containing the format elsewhere is written unchanged and not recognised.", "quantifier": "all weights, priors and file names", "why_tests_cant": "Round trip for every set of weights and prior.", "anchors": ["bilby/gw/likelihood/roq.py:ROQGravitationalWaveTransient.save_weights", "bilby/gw/likelihood/roq.py:ROQGravitationalWaveTransient.load_weights"]}
{"id": "C137", "title": "Neutron stars: when the tidal deformabilities are produced", "statement": "Whenever convert_to_lal_binary_neutron_star_parameters returns, lambda_1 and lambda_2 are both present exactly if no tidal name was given at all (both 0), or lambda_1 or lambda_tilde was given, or one of the four names that select an equation of state, or lambda_symmetric with lambda_antisymmetric or, in the result, mass_ratio. lambda_2 alone never yields lambda_1; lambda_symmetric with component masses only yields neither, silently; for floats lambda_symmetric with mass_ratio and no binary_love_uniform is a TypeError; delta_lambda_tilde without lambda_tilde is a KeyError.", "quantifier": "all parameter dictionaries", "why_tests_cant": "Quantifies over every combination of given parameters.", "anchors": ["bilby/gw/conversion.py:convert_to_lal_binary_neutron_star_parameters"]}
{"id": "C138", "title": "Neutron stars: values of the tidal deformabilities", "statement": "lambda_1 alone is kept, and lambda_2 satisfies lambda_1 m1^5 = lambda_2 m2^5. From lambda_tilde and delta_lambda_tilde the pair gives back both numbers in generate_tidal_parameters, unless the symmetric mass ratio is 4823/249158; lambda_tilde alone gives it back with equal lambda m^5. lambda_symmetric and lambda_antisymmetric are half sum and half difference. An equation of state gives the pair of its row of parameters and overrides a given pair; lambda_antisymmetric alone is ignored and both are 0.", "quantifier": "all parameter dictionaries and values", "why_tests_cant": "Precedence over all combinations, and exact round trips.", "anchors": ["bilby/gw/conversion.py:convert_to_lal_binary_neutron_star_parameters", "bilby/gw/conversion.py:generate_tidal_parameters"]}
{"id": "C139", "title": "Neutron stars: what the conversion keeps", "statement": "The keys of the result are the given keys in their order followed by the added keys, without repetition. Every given value is kept except the tidal pair, the values the binary-black-hole conversion replaces, and, with an equation of state, redshift, comoving distance, source-frame masses and eos_check.", "quantifier": "all parameter dictionaries", "why_tests_cant": "Frame condition over all dictionaries.", "anchors": ["bilby/gw/conversion.py:convert_to_lal_binary_neutron_star_parameters"]}
{"id": "C140", "title": "Equation of state: arrays of samples", "statement": "With arrays, the equation-of-state branch gives as many results as the shortest array has elements; element i is exactly what a conversion of the i-th sample alone gives, floats standing for every sample; all other entries, including floats that were expanded, are as before. An array of one element is not broadcast: one result for any number of samples, silently.", "quantifier": "all dictionaries of floats and arrays, all equations of state", "why_tests_cant": "All mixtures of floats and arrays of any length.", "anchors": ["bilby/gw/conversion.py:convert_to_lal_binary_neutron_star_parameters"]}
{"id": "C141", "title": "Equation of state: viability and value", "statement": "eos_check is set exactly when log10_pressure_1 < log10_pressure_2 (piecewise models), the family is viable, the maximal speed of sound is at most 1.1 and both masses lie in the family's range; otherwise both deformabilities are exactly 0. If set, they are (2/3) k2 (c^2 r / (G m))^5, positive for positive k2. The scaled pressures with a uniform ratio and a triangular second pressure are distributed uniformly on the triangle of increasing pressures. The principal-component map is injective, sends 0 to the mean and preserves lengths up to 1/40000 after division by the deviations.", "quantifier": "all parameters, masses and equations of state", "why_tests_cant": "An exact characterisation and an exact distribution.", "anchors": ["bilby/gw/conversion.py:spectral_params_to_lambda_1_lambda_2", "bilby/gw/conversion.py:polytrope_or_causal_params_to_lambda_1_lambda_2", "bilby/gw/conversion.py:neutron_star_family_physical_check", "bilby/gw/conversion.py:lambda_from_mass_and_family", "bilby/gw/conversion.py:log_pressure_reparameterization_conversion", "bilby/gw/conversion.py:spectral_pca_to_spectral"]}
{"id": "C142", "title": "Neutron stars: generating all or some parameters", "statement": "generate_all_bns_parameters without likelihood keeps every value that no later step writes: a fixed prior wins over the waveform defaults, and these over the sample, so a reference_frequency in the sample becomes 50. lambda_tilde and delta_lambda_tilde given in the sample come back unchanged. generate_specific_parameters gives exactly the requested keys with the values of the full conversion, and a KeyError only if a requested key is not among them.", "quantifier": "all samples, priors and lists of keys", "why_tests_cant": "Precedence and frame over all dictionaries.", "anchors": ["bilby/gw/conversion.py:generate_all_bns_parameters", "bilby/gw/conversion.py:generate_specific_parameters", "bilby/gw/conversion.py:fill_from_fixed_priors", "bilby/gw/conversion.py:_generate_all_cbc_parameters"]}
{"id": "C143", "title": "Binary Love relations", "statement": "The two deformabilities have mean lambda_symmetric exactly; half their difference is fit + mean + deviation times the normal quantile of binary_love_uniform, so a larger draw lowers lambda_1 and raises lambda_2. The automatic version is the same with one draw per sample. For equal masses the fit is 0 but the mean correction is not, so at the median two equal stars differ; and for every system draws near 0 and 1 give a negative deformability.", "quantifier": "all draws, deformabilities and mass ratios", "why_tests_cant": "Monotone dependence and exactness for all inputs.", "anchors": ["bilby/gw/conversion.py:binary_love_lambda_symmetric_to_lambda_1_lambda_2_manual_marginalisation", "bilby/gw/conversion.py:binary_love_lambda_symmetric_to_lambda_1_lambda_2_automatic_marginalisation", "bilby/gw/conversion.py:binary_love_fit_lambda_symmetric_mass_ratio_to_lambda_antisymmetric"]}
{"id": "C144", "title": "A printed prior can be read", "statement": "Reading the printed arguments of a prior gives the same prior, nested priors included, with spaces deleted from every string and backslashes and line ends escaped; so it gives the prior itself exactly if no string has a space, backslash or line end, and printing is injective there. It requires argument names and class names without punctuation, labels without commas and quotes and with ')' if with '(', at most one level of nested priors and at least one argument: commas in labels, two levels of nesting and empty parentheses cannot be read. A string with an apostrophe is printed in double quotes, left to Python's eval and so keeps even its backslashes. Arguments without a name take the constructor's names in order; the letter before a raw string is dropped; lists and dictionaries are left to eval.", "quantifier": "all priors with any arguments", "why_tests_cant": "The round trip over all argument lists, strings and nested priors.", "anchors": ["bilby/core/prior/base.py:Prior.__repr__", "bilby/core/prior/base.py:Prior.from_repr", "bilby/core/prior/base.py:Prior._split_repr", "bilby/core/prior/base.py:Prior._parse_argument_string"]}
{"id": "C145", "title": "Prior files round trip", "statement": "Writing a dictionary of priors to a file and reading it gives the same keys in the same order, and every prior with only the spaces of its strings deleted (backslashes and tabs survive); so the dictionary comes back exactly if no string has a space. In files written by hand, labels are decoded (\\nu ends the line), comments after a value are errors, and a conversion function stays in the dictionary as a string.", "quantifier": "all dictionaries of priors whose keys have no space, '=', line end or backslash", "why_tests_cant": "Quantifies over every dictionary and every label.", "anchors": ["bilby/core/prior/dict.py:PriorDict.to_file", "bilby/core/prior/dict.py:PriorDict.from_file", "bilby/core/prior/dict.py:PriorDict.from_dictionary"]}
{"id": "C146", "title": "Reading dictionaries with joint priors", "statement": "Every entry except the distributions appears in the result under its key, in order, once. Priors stay, numbers and texts that are numbers become delta functions, texts of a plain class are read by it. A joint prior that is read refers to a distribution that stands earlier, under the key after 'dist='; before its distribution it is an error. That key is read correctly exactly if no further comma follows before the next space, so 'dist=' must come first, must be followed by a comma, and without spaces after the commas the entry is an error.", "quantifier": "all dictionaries of texts, numbers and priors", "why_tests_cant": "An invariant over all dictionaries and orders of entries.", "anchors": ["bilby/core/prior/dict.py:PriorDict.from_dictionary"]}
{"id": "C147", "title": "Ensemble samplers: samples and their log likelihoods", "statement": "ptemcee returns the steps of walker 0, then of walker 1 and so on, each from the burn-in on and thinned, and the log likelihoods in the same order, so entry k belongs to sample k; kombine likewise, step by step. emcee does not: sample w*m+s is step nburn+s of walker w (m steps after burn-in) while its log likelihood is entry s*nwalkers+w; the values are a permutation, equal in order for one walker or one step, and misaligned in general. kombine's result.walkers row w, entry s is entry (w*nsteps+s) mod nwalkers of step (w*nsteps+s) div nwalkers, not step s of walker w.", "quantifier": "all chains, numbers of walkers, steps, burn-in and thinning", "why_tests_cant": "The pairing is a statement about every index of every chain.", "anchors": ["bilby/core/sampler/ptemcee.py:Ptemcee.run_sampler", "bilby/core/sampler/emcee.py:Emcee.run_sampler", "bilby/core/sampler/emcee.py:Emcee._generate_result", "bilby/core/sampler/kombine.py:Kombine.run_sampler"]}
{"id": "C148", "title": "ptemcee: stored chains survive growth, checkpoints and restarts", "statement": "For every sequence of recorded checks, appended statistics, checkpoints and restarts the arrays hold exactly the recorded rows in order followed by zeros, in whole blocks of max_steps; the next position is the last row. A restart goes on with exactly the rows recorded up to the last checkpoint, and fails exactly when that checkpoint was written before any check was complete (a termination signal during the first check).", "quantifier": "all histories of a run", "why_tests_cant": "An invariant and refinement over unbounded histories.", "anchors": ["bilby/core/sampler/ptemcee.py:Ptemcee.setup_sampler", "bilby/core/sampler/ptemcee.py:Ptemcee.run_sampler", "bilby/core/sampler/ptemcee.py:checkpoint"]}
{"id": "C149", "title": "ptemcee: when a run stops and what it returns", "statement": "A run stops exactly when the largest autocorrelation time is finite, the Gelman-Rubin statistic is below Q_tol, more than nsamples effective samples remain, enough times are stored for a window and both gradients are below their limits, and nsteps >= autocorr_tol*tau and tau >= min_tau. It then has more than nwalkers steps after the discarded ones and returns between neff and neff+nwalkers samples, more than nsamples. The discard is the latest first step at which a temperature comes within the fraction of its largest mean log posterior; the chain need not stay there. With ignore_keys_for_tau matching any parameter, or one walker without autocorrelation time, it never stops.", "quantifier": "all convergence inputs, numbers of walkers and steps, times and gradients", "why_tests_cant": "An exact characterisation over all settings and states.", "anchors": ["bilby/core/sampler/ptemcee.py:check_iteration", "bilby/core/sampler/ptemcee.py:calculate_tau_array", "bilby/core/sampler/ptemcee.py:get_minimum_stable_itertion", "bilby/core/sampler/ptemcee.py:Ptemcee.run_sampler"]}
{"id": "C150", "title": "ptemcee: the Gelman-Rubin statistic", "statement": "For at least two walkers and steps, Q is at least sqrt((n-1)/n), with equality exactly if all walkers have the same mean, and does not change when the parameter is shifted or scaled. Its square exceeds (n-1)/n by n/(n-1) times what the textbook statistic does, because the variance within walkers is the biased one. With one step it is infinite.", "quantifier": "all samples of all walkers", "why_tests_cant": "An inequality with its case of equality over all real samples.", "anchors": ["bilby/core/sampler/ptemcee.py:get_Q_convergence"]}
{"id": "C151", "title": "ptemcee: evidence and its error", "statement": "The evidence is exact for a mean log likelihood affine in beta over the betas used, lies between the smallest and largest mean log likelihood times that range, and temperatures with infinite mean are left out. The error estimate of a constant mean log likelihood c is 0 for an odd number of temperatures, but |c| times the hottest interval of beta for an even number, although the evidence is exact.", "quantifier": "all temperature ladders and mean log likelihoods", "why_tests_cant": "Exactness and bounds for all ladders.", "anchors": ["bilby/core/sampler/ptemcee.py:compute_evidence"]}
{"id": "C152", "title": "ptemcee: periodic parameters, evaluation and starting points", "statement": "After each check a periodic parameter lies in [minimum, maximum), shifted by whole ranges. Proposals are evaluated before that, so a proposal outside the range has ln prior -inf, and the wrapping never changes an accepted point except at the maximum itself. The likelihood is evaluated only where the prior is positive, and is 0 elsewhere. Starting by minimisation uses exactly the first ten successes; with fewer successes it never ends, since the trials are not counted.", "quantifier": "all points, ranges, priors, likelihoods and sequences of minimisations", "why_tests_cant": "Covers every sequence of attempts and every point.", "anchors": ["bilby/core/sampler/ptemcee.py:Ptemcee.run_sampler", "bilby/core/sampler/ptemcee.py:LikePriorEvaluator", "bilby/core/sampler/ptemcee.py:Ptemcee.get_pos0_from_minimize"]}
{"id": "C153", "title": "emcee: checkpoints, chain file and burn-in", "statement": "The steps in memory always are a subsequence of the rows of chain.dat. Ended by signals only, both hold every step ever done, and resuming fails exactly after a signal before the first step; ended otherwise after an earlier checkpoint, chain.dat keeps steps the resumed run does not have. A resumed run has the requested number of iterations in total. An accepted nburn, or the default fraction, leaves nwalkers*(nsteps-nburn) > 0 samples; a burn-in from the autocorrelation time that equals nsteps passes the check with no sample.", "quantifier": "all histories of signals, kills and steps; all burn-in settings", "why_tests_cant": "Invariant over unbounded histories of interruptions.", "anchors": ["bilby/core/sampler/emcee.py:Emcee.sampler", "bilby/core/sampler/emcee.py:Emcee.write_chains_to_file", "bilby/core/sampler/emcee.py:Emcee.run_sampler", "bilby/core/sampler/emcee.py:Emcee.nburn", "bilby/core/sampler/emcee.py:Emcee._generate_result"]}
{"id": "C154", "title": "Every listed sampler can be looked up", "statement": "Every name that iterating over the table of implemented samplers lists is accepted by lookup and gives the entry listed with it, and the names are distinct, provided no registered name contains 'bilby.' other than as a prefix. A plugin with the name of a built-in sampler is found under that name, the built-in under 'bilby.' plus the name, and no other lookup changes. run_sampler finds a name whatever the case of its letters; as it looks names up in lower case, names with capitals are listed but not found; a name with 'bilby.' inside is listed but cannot be loaded.", "quantifier": "all registries, names and plugins", "why_tests_cant": "Registries depend on the installed packages.", "anchors": ["bilby/core/sampler/__init__.py:ImplementedSamplers.keys", "bilby/core/sampler/__init__.py:ImplementedSamplers.items", "bilby/core/sampler/__init__.py:ImplementedSamplers.valid_keys", "bilby/core/sampler/__init__.py:ImplementedSamplers.__getitem__", "bilby/core/sampler/__init__.py:get_sampler_class"]}
{"id": "C155", "title": "When run_sampler samples and when it reuses a result", "statement": "run_sampler returns a stored result, without sampling, exactly if `{outdir}/{label}_result.json` exists, clean was never requested in this process, its search and fixed parameter keys and likelihood meta data equal the present ones and it has a posterior or the call can make one; otherwise it samples exactly once (or raises, if the stored result has no likelihood meta data). Priors are not compared. Once clean=True was given, every later call of the process samples. Results saved in another format are never reused. If making the posterior fails, the samples are on disk and the next process makes the posterior from them without sampling again. An unknown format raises after the sampling and stores nothing.", "quantifier": "all arguments, stored files and sequences of calls", "why_tests_cant": "Depends on histories of calls and processes.", "anchors": ["bilby/core/sampler/__init__.py:run_sampler", "bilby/core/sampler/base_sampler.py:Sampler._check_cached_result", "bilby/core/result.py:result_file_name", "bilby/core/result.py:Result.save_to_file"]}
{"id": "C156", "title": "Derived fields of the result of run_sampler", "statement": "In every returned result log_evidence = log_bayes_factor + log_noise_evidence, over all sequences of calls; whichever of the two the sampler supplied is kept, decided by use_ratio or, if not given, by whether the noise likelihood is a number. A duration given by the sampler is the sampling time, otherwise the measured one; a plain number is read as days. The conversion function is applied to the injection parameters twice on the first call and once more on every later call that reuses the result, so they are stable exactly when it is idempotent on its own output. The `.seconds` attribute equals the duration exactly below one day.", "quantifier": "all samplers' outputs, conversion functions and sequences of calls", "why_tests_cant": "Sequences of calls of any length.", "anchors": ["bilby/core/sampler/__init__.py:run_sampler", "bilby/core/sampler/base_sampler.py:Sampler._verify_use_ratio", "bilby/core/sampler/dynesty.py:Dynesty.run_sampler"]}
{"id": "C157", "title": "dynesty runs survive interruption", "statement": "However a dynesty run is divided into processes that are killed, signalled or time out at any step, whenever it finishes its result is the dead points followed by the live points of a sampler state reached from an initial state by whole iterations and at which dynesty's stopping rule holds; if re-adding and removing live points leaves the sampler unchanged it is the result of an uninterrupted run. It finishes as soon as that state can be reached in the remaining steps. With resume the number of likelihood calls on disk never decreases. The user's maxcall and add_live are ignored when checkpointing is on.", "quantifier": "all samplers, stopping rules, checkpoint intervals and histories of interruptions", "why_tests_cant": "Unbounded histories of interruptions.", "anchors": ["bilby/core/sampler/dynesty.py:Dynesty._run_external_sampler_with_checkpointing", "bilby/core/sampler/dynesty.py:Dynesty._run_external_sampler_without_checkpointing", "bilby/core/sampler/dynesty.py:Dynesty.write_current_state", "bilby/core/sampler/dynesty.py:Dynesty.read_saved_state", "bilby/core/sampler/dynesty.py:Dynesty.finalize_sampler_kwargs"]}
{"id": "C158", "title": "Sampling time of dynesty adds up", "statement": "Over any number of processes the recorded sampling time is the sum, over the processes, of the time from the start of each to its last recorded moment, without the gaps between them; it is never below the earlier total nor above the total run time. A signal before the clock is started adds the gap since the last record, and in a first process leaves a file which no later process can read.", "quantifier": "all histories of processes and clock readings", "why_tests_cant": "Unbounded histories.", "anchors": ["bilby/core/sampler/dynesty.py:Dynesty._update_sampling_time", "bilby/core/sampler/dynesty.py:Dynesty.write_current_state", "bilby/core/sampler/dynesty.py:Dynesty.read_saved_state", "bilby/core/sampler/dynesty.py:Dynesty.run_sampler"]}
{"id": "C159", "title": "dynesty set-up is consistent", "statement": "The periodic and reflective lists hold exactly the positions of the parameters with that boundary, in increasing order, are None if there is none, and are disjoint. If the sampling method is accepted and is one of bilby's walks, the live points are available whenever its proposals need them, and for rwalk walks <= maxmcmc and nact >= 1. It is refused exactly if the bound is not live and the method is acceptance-walk or differential evolution was requested, or rwalk violates these limits. rwalk_dynesty is passed on as rwalk with an ordinary bound, which is bilby's walk, lacking its live points, if the process used rwalk before. Over any sequence of set-ups in a process a name is overwritten in dynesty's registry exactly if a set-up that went through asked for that walk of bilby's.", "quantifier": "all boundary lists, method names, bounds, proposals and registries", "why_tests_cant": "Combination of all options.", "anchors": ["bilby/core/sampler/dynesty.py:Dynesty._apply_dynesty_boundaries", "bilby/core/sampler/dynesty.py:Dynesty._set_sampling_method", "bilby/core/sampler/dynesty.py:Dynesty.run_sampler", "bilby/core/sampler/dynesty_utils.py:_get_proposal_kwargs"]}
{"id": "C160", "title": "Posterior and effective number from dynesty's weights", "statement": "Samples and log likelihoods of the posterior stay together; a nested sample is kept exactly if its uniform draw between zero and the largest weight is below its weight, so the sample of largest weight is always kept, one of weight zero never, and the posterior is not empty. The weights sum to one. The effective number lies between one and the number of nested samples, is unchanged by a common factor of the weights and equals their number for equal weights.", "quantifier": "all weights, draws and sample lists", "why_tests_cant": "Real-valued identities.", "anchors": ["bilby/core/sampler/dynesty.py:Dynesty._generate_result"]}
{"id": "C161", "title": "Proposals of dynesty's random walks", "statement": "Differential evolution moves the first n_cluster coordinates by scale times the difference of two live points and draws the others afresh, keeps the length, is reversed by the same pair in the other order, and keeps linear relations that hold for the points. The pair is chosen from the live points, each row once, with the current point still among them, so that with the mode-hopping scale every other live point is a possible proposal from a live point. A volumetric proposal with unit axes moves by scale times a point of the unit ball. Proposal weights are normalised to sum to one in the given proportions.", "quantifier": "all points, scales, draws and weights", "why_tests_cant": "Real-valued identities for every dimension.", "anchors": ["bilby/core/sampler/dynesty_utils.py:propose_differetial_evolution", "bilby/core/sampler/dynesty_utils.py:propose_volumetric", "bilby/core/sampler/dynesty_utils.py:_get_proposal_kwargs"]}
{"id": "C162", "title": "The categorical prior", "statement": "With n <= 16 categories each of 0, ..., n-1 has probability 1/n, every other value zero, and they sum to one. From 17 on the last category has probability zero (log -inf) and the rest sum to 1 - 1/n, although rescale returns it for every u in [1-1/n, 1). ln_prob is the log of prob, -inf exactly where prob is zero. rescale returns k exactly for u in [k/(n+d), (k+1)/(n+d)) with 0 <= d <= 1e-14; at u = 1 it returns n, which has probability zero.", "quantifier": "all numbers of categories and values", "why_tests_cant": "Every n; the tests use three categories.", "anchors": ["bilby/core/prior/analytical.py:Categorical.__init__", "bilby/core/prior/analytical.py:Categorical.rescale", "bilby/core/prior/analytical.py:Categorical.prob", "bilby/core/prior/analytical.py:Categorical.ln_prob"]}
{"id": "C163", "title": "The cdf a prior inherits", "statement": "For finite limits the generic Prior.cdf is defined everywhere: 0 at and below the minimum, 1 above the maximum, never decreasing up to the maximum for a non-negative density. At each of the 1000 grid points it is the integral of the broken line through the density, hence the probability for a straight-line density and at least the probability for a convex one. For 3x^2 on [0,1] it exceeds one at the maximum and falls beyond it; for a categorical prior, which inherits it, cdf(1) is below 1/1000 with two categories.", "quantifier": "all densities, limits and values", "why_tests_cant": "Integrals of arbitrary densities.", "anchors": ["bilby/core/prior/base.py:Prior.cdf"]}
{"id": "C164", "title": "Equality of priors", "statement": "For priors without NaN whose class determines which arguments are arrays, == never raises, is an equivalence, and holds exactly if class, attributes and arguments agree at every depth, the last drawn sample left out. A prior equals itself exactly if no argument is NaN. With a number on one side and an array on the other it depends on the order: true or an exception one way, false the other. Frozen scipy distributions are never compared.", "quantifier": "all argument values, nested priors included", "why_tests_cant": "Unbounded nesting and values.", "anchors": ["bilby/core/prior/base.py:Prior.__eq__"]}
{"id": "C165", "title": "Filling and copying prior dictionaries", "statement": "fill_priors keeps every entry, numbers turned into delta functions; what it adds is the default prior of a likelihood parameter; afterwards each such parameter has a prior, is redundant or has no default; filling again changes nothing. The order of the missing parameters is immaterial when only names present are redundant, but not for the binary black hole rules. A copy evaluates constraints as the original if the latter uses the class's default conversion, not in general. evaluate_constraints holds exactly if every constrained quantity of the converted sample lies strictly inside its range.", "quantifier": "all dictionaries, parameter sets, orders of the set, redundancy rules and defaults", "why_tests_cant": "Set iteration order varies between runs.", "anchors": ["bilby/core/prior/dict.py:PriorDict.fill_priors", "bilby/core/prior/dict.py:PriorDict.convert_floats_to_delta_functions", "bilby/core/prior/dict.py:PriorDict.copy", "bilby/core/prior/dict.py:PriorDict.evaluate_constraints"]}
{"id": "C166", "title": "Injection credible levels", "statement": "A credible level lies in [0,1], is 0 if no sample is below the injected value and 1 if all are, does not fall when the value rises, becomes its complement under reflection without ties, and depends on ratios of weights only. For n+1 distinct draws each in turn taken as injected and the others as samples, the levels are 0, 1/n, ..., 1, each once. The table of all levels has an entry exactly for the parameters whose injected value is a float, so an int injection is left out.", "quantifier": "all samples, weights and values", "why_tests_cant": "The uniformity behind P-P tests is a statement about all configurations.", "anchors": ["bilby/core/result.py:Result.get_injection_credible_level", "bilby/core/result.py:Result.get_all_injection_credible_levels"]}
{"id": "C167", "title": "Reconstructing marginalised parameters in blocks, with restarts", "statement": "Without a cache, the per-detector likelihoods and the reconstructed parameters are those of each row on its own, whatever the block size; an empty table raises, block size zero never ends. With the cache and one block size, however often the call is killed and restarted, it ends with one value per row, drawn for that row: values stored earlier are kept, the others are drawn with the last call's seeds. A completed cache for the same samples is used as it stands whatever the likelihood. After attempts with one block size, a call with another either raises or is right. After two changes it may silently give rows each other's values.", "quantifier": "all tables, block sizes, seeds, crash points and histories of restarts", "why_tests_cant": "Unbounded histories of crashes.", "anchors": ["bilby/gw/conversion.py:generate_posterior_samples_from_marginalized_likelihood", "bilby/gw/conversion.py:compute_per_detector_log_likelihoods", "bilby/gw/conversion.py:fill_sample"]}
{"id": "C168", "title": "Computed columns belong to their rows", "statement": "SNRs, per-detector likelihoods and reconstructed parameters are attached by position, so each row gets its own whatever its label. Sky-frame parameters are attached by label: each row gets its own exactly if its label is the position of a row with the same value, so for distinct values exactly if the labels are 0..n-1 in order; in a filtered or reordered posterior they are exchanged or missing. Rows with the same keys evaluated one after the other give what each gives alone if an evaluation changes only those keys.", "quantifier": "all tables, labels and row functions", "why_tests_cant": "All labellings of all tables.", "anchors": ["bilby/gw/conversion.py:compute_snrs", "bilby/gw/conversion.py:generate_sky_frame_parameters", "bilby/gw/conversion.py:_compute_snrs"]}
{"id": "C169", "title": "Marginalisation and the caller's priors", "statement": "A likelihood that marginalises over time, phase or distance keeps the caller's priors, or the defaults, and replaces in the caller's dictionary each marginalised prior by a number, adds the jitter prior and removes redshift and comoving distance; all else stays. It raises ValueError exactly if such a prior is fixed, so the dictionary cannot be used twice. Distance marginalisation without any distance prior raises KeyError. With a detector as time reference time is not marginalised over. A constructor that raises may already have overwritten the caller's priors.", "quantifier": "all dictionaries, options, defaults and cosmological conversions", "why_tests_cant": "All combinations of options and dictionaries.", "anchors": ["bilby/gw/likelihood/base.py:GravitationalWaveTransient.__init__", "bilby/gw/likelihood/base.py:GravitationalWaveTransient._check_marginalized_prior_is_set", "bilby/gw/likelihood/base.py:GravitationalWaveTransient.priors"]}
{"id": "C170", "title": "Sky frame and reference time", "statement": "With the sky frame and geocentric time the given values are used. From a detector time the geocentric time is found within K D if the delay is bounded by D and changes by at most K per second. In a detector frame exactly zenith, azimuth and reference time, or ra, dec and some time without both angles, are accepted; the announced fall-back to geocentric time is not made with zenith and azimuth. Jitter leaves the geocentric time unchanged unless the evaluation fails. Rows with the same keys evaluated in turn give what each gives alone; with different keys a detector time left behind wins. A text frame is read as two two-letter names.", "quantifier": "all parameter dictionaries, delays, frames, references and sequences of evaluations", "why_tests_cant": "State left behind by evaluations; real-valued bounds.", "anchors": ["bilby/gw/likelihood/base.py:GravitationalWaveTransient.get_sky_frame_parameters", "bilby/gw/likelihood/base.py:GravitationalWaveTransient.log_likelihood_ratio", "bilby/gw/likelihood/base.py:GravitationalWaveTransient.compute_per_detector_log_likelihood", "bilby/gw/likelihood/base.py:GravitationalWaveTransient.reference_frame"]}
{"id": "C171", "title": "Boundaries of jump proposals", "statement": "JumpProposal keeps the keys of a sample. Values without boundary and values in the prior's range stay as they are; periodic values outside are shifted by whole widths into the range; reflective ones become their mirror image in the range, except that a value whose distance from the minimum is an odd number of widths is returned unmoved, outside the prior. Applying it again changes nothing. A parameter without a prior is a KeyError.", "quantifier": "all samples and priors", "why_tests_cant": "Arbitrary excursions beyond the boundary; the exception is a set of isolated values.", "anchors": ["bilby/core/sampler/proposal.py:JumpProposal.__call__", "bilby/core/sampler/proposal.py:JumpProposal._move_reflecting_keys", "bilby/core/sampler/proposal.py:JumpProposal._move_periodic_keys", "bilby/core/sampler/proposal.py:JumpProposal._apply_boundaries", "bilby/core/sampler/proposal.py:JumpProposal._move_periodic_keys"]}
{"id": "C172", "title": "The proposal cycle", "statement": "Whatever the sequence of calls and redraws, no call fails, and a call uses the entry number (calls so far) mod cycle_length of the cycle drawn last; a redraw does not reset the position. Classes in the list are instantiated. The constructor refuses exactly weights of the wrong length; normalised weights sum to one and keep their ratios. After setting cycle_length without a redraw a call may raise IndexError; a redraw mends it.", "quantifier": "all proposal lists, weights, draws and call sequences", "why_tests_cant": "Unbounded call sequences.", "anchors": ["bilby/core/sampler/proposal.py:JumpProposalCycle.__init__", "bilby/core/sampler/proposal.py:JumpProposalCycle.__call__", "bilby/core/sampler/proposal.py:JumpProposalCycle.update_cycle", "bilby/core/sampler/proposal.py:JumpProposalCycle.weights", "bilby/core/sampler/proposal.py:JumpProposalCycle.__len__"]}
{"id": "C173", "title": "Ensemble jump proposals and their log_j", "statement": "The ensemble walk moves each coordinate by the sum of random multiples of the chosen points' offsets from their mean; the complementary numbers lead back, equal ones do not move. The stretch multiplies all distances from the second point by one factor in [1/scale, scale], and exp(log_j) is that factor to the number of parameters; the opposite number leads back with log_j of opposite sign. Differential evolution moves by a multiple of a difference and is reversed by the exchanged pair. The eigenvector move is along the chosen eigenvector with variance |eigenvalue|, in one dimension the points' variance; it and the normal jump are reversed by the opposite number. The flat draw is uniform between the limits. All but the stretch return log_j = 0.", "quantifier": "all samples, ensembles and random numbers, away from boundaries", "why_tests_cant": "Detailed balance rests on real identities.", "anchors": ["bilby/core/sampler/proposal.py:EnsembleWalk.__call__", "bilby/core/sampler/proposal.py:EnsembleStretch.__call__", "bilby/core/sampler/proposal.py:DifferentialEvolution.__call__", "bilby/core/sampler/proposal.py:EnsembleEigenVector.__call__", "bilby/core/sampler/proposal.py:NormJump.__call__", "bilby/core/sampler/proposal.py:DrawFlatPrior.__call__"]}
{"id": "C174", "title": "Jump proposals within cpnest", "statement": "The wrapped proposal shows the jump the live point as a dictionary from names to values; the point handed back, read the same way, is what the jump returned, with its log_j as log_J. If the jump keeps the order of the keys, names keep theirs. A failing jump fails.", "quantifier": "all points and jumps", "why_tests_cant": "All jumps and dimensions.", "anchors": ["bilby/core/sampler/cpnest.py:cpnest_proposal_factory", "bilby/core/sampler/proposal.py:Sample.from_cpnest_live_point"]}
{"id": "C175", "title": "What adapters read back from the samplers", "statement": "From files with at least two draws PolyChord, MultiNest and PTMCMCSampler adapters return each draw together with bilby's log likelihood at it, PTMCMCSampler from nburn on; a file with one draw or none raises IndexError after the run. For Ultranest a point is kept exactly if its uniform number times the largest weight is below its weight, so one of largest weight always, one of weight zero never; kept points have their own log likelihoods, in order. MultiNest's nested samples are the dead points followed by the live ones with a volume inserted before the mode, and these volumes sum to what the dead points left. Nessai's weights are positive, sum to one and keep ratios.", "quantifier": "all draws, likelihoods, weights and dimensions", "why_tests_cant": "All tables; the samplers' files are not produced in unit tests.", "anchors": ["bilby/core/sampler/polychord.py:PyPolyChord._read_sample_file", "bilby/core/sampler/pymultinest.py:Pymultinest.run_sampler", "bilby/core/sampler/pymultinest.py:Pymultinest._nested_samples", "bilby/core/sampler/ptmcmc.py:PTMCMCSampler.run_sampler", "bilby/core/sampler/ultranest.py:Ultranest._generate_result", "bilby/core/sampler/nessai.py:Nessai.get_posterior_weights"]}
{"id": "C176", "title": "DNest4's moves", "statement": "perturb changes one coordinate, by width times (u - 1/2) up to whole widths, into [low, high), the range of the prior draws; it raises ValueError exactly if that range has no width; it always returns 0. From any value every value of the range is reached by exactly one u in [0,1), so the move is a uniform draw. It therefore balances a prior that is flat on the range, but not any other: flows between two values differ for a prior that is not flat.", "quantifier": "all points, widths, centres and random numbers", "why_tests_cant": "Reversibility is a statement about all pairs of points.", "anchors": ["bilby/core/sampler/dnest4.py:_DNest4Model.perturb", "bilby/core/sampler/dnest4.py:_DNest4Model.wrap", "bilby/core/sampler/dnest4.py:DNest4.__init__"]}
{"id": "C177", "title": "Runs in temporary directories", "statement": "If the sampler deletes no file, a finished run leaves the same files with the same contents whether or not it used a temporary directory. With deletions, every file of the output directory stays and every file surviving in the temporary one has its last content there, so deleted files reappear. Over any number of finished processes the recorded sampling time is the sum of their durations. A killed process leaves the output as at its last dump, or untouched without one (always for Ultranest); the time copied by a first dump is the one from before the process. Saving the time after the move fails.", "quantifier": "all sequences of file operations and callbacks, crash points and numbers of processes", "why_tests_cant": "Unbounded histories of processes and crashes.", "anchors": ["bilby/core/sampler/base_sampler.py:_TemporaryFileSamplerMixin._setup_run_directory", "bilby/core/sampler/base_sampler.py:_TemporaryFileSamplerMixin._move_temporary_directory_to_proper_path", "bilby/core/sampler/base_sampler.py:_TemporaryFileSamplerMixin._copy_temporary_directory_contents_to_proper_path", "bilby/core/sampler/base_sampler.py:_TemporaryFileSamplerMixin._calculate_and_save_sampling_time", "bilby/core/sampler/pymultinest.py:Pymultinest._dump_callback", "bilby/core/sampler/ultranest.py:Ultranest._viz_callback"]}
{"id": "C178", "title": "Directories and options passed to MultiNest, Ultranest and DNest4", "statement": "The run directory is always outdir/shortname_label/, whatever outputfiles_basename or log_dir the user gives. Ultranest's resume becomes 'overwrite' for True, False and when absent; other values pass; verbose becomes show_status unless that is given; other keywords stay. wrapped_params has one flag per search parameter, in their order, set exactly for periodic ones, in both adapters.", "quantifier": "all names, keyword dictionaries and priors", "why_tests_cant": "All combinations of options.", "anchors": ["bilby/core/sampler/base_sampler.py:_TemporaryFileSamplerMixin.outputfiles_basename", "bilby/core/sampler/ultranest.py:Ultranest._translate_kwargs", "bilby/core/sampler/ultranest.py:Ultranest._apply_ultranest_boundaries", "bilby/core/sampler/pymultinest.py:Pymultinest._apply_multinest_boundaries"]}
{"id": "C179", "title": "Result files: names, formats, fall-back", "statement": "A result saved under its default name, in any format and compressed or not, over whatever stood there, is read back with the same outdir, label, extension and gzip and with the name alone; other formats are refused before anything is touched. With a name of the caller's choice the file is readable exactly if the extension in the name announces the format written. Only the file, its '.old' copy and one pickle are ever touched, and the previous file is kept as '.old' unless overwriting. If writing fails before the file is begun, the pickle holds the result and a result list naming the file finds it, while reading by outdir and label raises; a file left half written hides the pickle from the list as well. The pickle replaces an earlier one without keeping it; for a name without extension it lies elsewhere. from_pickle(outdir, label) never finds the pickle saved under them.", "quantifier": "all names, labels, directories, formats, earlier files and failures", "why_tests_cant": "All strings and failure points.", "anchors": ["bilby/core/result.py:result_file_name", "bilby/core/result.py:_determine_file_name", "bilby/core/result.py:read_in_result", "bilby/core/result.py:read_in_result_list", "bilby/core/result.py:Result.save_to_file", "bilby/core/result.py:Result.from_pickle", "bilby/core/utils/io.py:load_json", "bilby/core/utils/io.py:move_old_file"]}
{"id": "C180", "title": "The posterior table made from samples", "statement": "samples_to_posterior makes one row per sample. In a sample's row the search parameters have that sample's values, parameters fixed by delta functions or floats their value, and the last two columns its log likelihood and its log prior, the recorded one or the one the priors give to that row. Columns come in this order. Rows or recorded columns of another length are refused. A search parameter that the priors fix loses its samples; conditional delta functions get no column.", "quantifier": "all samples, keys, priors and recorded values", "why_tests_cant": "All tables.", "anchors": ["bilby/core/result.py:Result.samples_to_posterior", "bilby/core/result.py:Result._add_prior_fixed_values_to_posterior"]}
{"id": "C181", "title": "Weights for a new prior", "statement": "With rows labelled in order, get_weights_by_new_prior gives each sample the product, over the parameters in both dictionaries (and in prior_names if given), of new over old prior, and zero if the new constraints are broken; the same priors give ones; weights multiply along a chain of priors. With no shared parameter all weights are one even if constraints are broken. Weights follow the row labels: of a reordered table they come in label order, and a table with a missing label is refused.", "quantifier": "all priors, constraints, tables and name lists", "why_tests_cant": "All tables and dictionaries.", "anchors": ["bilby/core/result.py:Result.get_weights_by_new_prior"]}
{"id": "C182", "title": "The posterior samples file", "statement": "save_posterior_samples writes the real columns unchanged in their order, then for each column holding a complex number its absolute values and angles, which determine the numbers; flags and texts are left out. A complex column without imaginary parts stays complex; a column already named like the absolute values of another is replaced.", "quantifier": "all posterior tables", "why_tests_cant": "All tables and names.", "anchors": ["bilby/core/result.py:Result.save_posterior_samples"]}
{"id": "C183", "title": "Volumes, Occam factor and dimensionality", "statement": "With one parameter posterior_volume is the standard deviation, independent of location and scaling with the samples. With two of correlation r it is the right volume times |r|/(1-r^2), hence below two thirds of it for |r| < 1/2, and not a number for uncorrelated ones. prior_volume is the product of the widths in any order and zero exactly if a parameter is fixed. The model dimensionality is twice the variance of the log likelihood: not negative, zero only if constant, unchanged by a shift.", "quantifier": "all samples with one or two parameters, all priors", "why_tests_cant": "Real identities.", "anchors": ["bilby/core/result.py:Result.covariance_matrix", "bilby/core/result.py:Result.posterior_volume", "bilby/core/result.py:Result.prior_volume", "bilby/core/result.py:Result.occam_factor", "bilby/core/result.py:Result.bayesian_model_dimensionality"]}
{"id": "C184", "title": "The posterior density of new samples", "statement": "posterior_probability of one sample is the density estimate at its values in the order of the search parameters, whatever the order of its entries; a sample lacking one is refused. Several samples are refused unless they are as many as the parameters, and then the transposed points are evaluated. The estimate is that of the posterior at the first question, and later posteriors are not seen.", "quantifier": "all samples, tables and histories", "why_tests_cant": "Unbounded histories.", "anchors": ["bilby/core/result.py:Result.kde", "bilby/core/result.py:Result.posterior_probability"]}
{"id": "C185", "title": "Safe durations and injection into a time series", "statement": "get_safe_signal_duration gives a power of two, at least four seconds and longer than the signal; beyond four seconds half of it is not longer; it never falls as the signal grows; an exact power of two is doubled; it fails exactly for a chirp time that is not positive. inject_signal_into_gwpy_timeseries adds the antenna-weighted polarisations moved by the whole number of samples nearest to the arrival time, cyclically: every sample of the signal appears once, energy is kept, and arriving one (even) segment later gives the same data. Signals longer than the data are not refused. The ratios returned do not depend on the arrival time, and the matched filter is against the data before the injection: zero without noise.", "quantifier": "all chirp times, signals, antenna responses, arrival times and data", "why_tests_cant": "Real arithmetic, all segments.", "anchors": ["bilby/gw/detector/__init__.py:get_safe_signal_duration", "bilby/gw/detector/__init__.py:inject_signal_into_gwpy_timeseries"]}
{"id": "C186", "title": "Whitening", "statement": "whiten_frequency_series divides each bin by a positive number whose square is T S / 4, with S the spectral density times the window factor (zero where S is infinite). Over the analysed bins the squared sizes add up to the squared optimal signal-to-noise ratio of the series. The whitened time series obeys Parseval's identity with the factor L^2/M, for L frequencies of which M are analysed; with two per analysed bin its mean square is (L/(L-1))^2, not one. For data that vanish outside the band the squares of the whitened strain add up to L^2/(M m) times the squared optimal signal-to-noise ratio of the data.", "quantifier": "all series, spectral densities, masks and lengths", "why_tests_cant": "An identity of discrete Fourier sums for all lengths.", "anchors": ["bilby/gw/detector/interferometer.py:Interferometer.whiten_frequency_series", "bilby/gw/detector/interferometer.py:Interferometer.get_whitened_time_series_from_whitened_frequency_series", "bilby/gw/detector/interferometer.py:Interferometer.whitened_frequency_domain_strain", "bilby/gw/detector/interferometer.py:Interferometer.whitened_time_domain_strain"]}
{"id": "C187", "title": "Triangular interferometers", "statement": "A TriangularInterferometer has three detectors numbered 1 to 3, the first at the given place, each turned by 240 degrees more, all with the same opening angle; curves and cut-offs are shared or one each. With arms 60 degrees apart each step to the next vertex is one arm length exactly against the y arm of the detector it starts from, and the steps close. So the arms point away from the other vertices. The step in longitude is short by the cosine of the latitude.", "quantifier": "all positions, azimuths and arm lengths", "why_tests_cant": "Trigonometric identities.", "anchors": ["bilby/gw/detector/networks.py:TriangularInterferometer.__init__"]}
{"id": "C188", "title": "Detector files", "statement": "In load_interferometer lines beginning with '#' or a line break play no part; any other line names a parameter before its first '=' (blanks stripped) with the value of all the rest; the last line for a name wins. The shape, whatever its letter case, selects the class ('l' or 'ligo', 'triangular' or 'triangle', one arm pair if missing), which never sees that parameter. get_empty_interferometer raises its ValueError exactly if there is no such file or its shape is another text. A line of blanks only makes loading fail.", "quantifier": "all files, values and names", "why_tests_cant": "All texts.", "anchors": ["bilby/gw/detector/networks.py:load_interferometer", "bilby/gw/detector/networks.py:get_empty_interferometer"]}
{"id": "C189", "title": "Loading from a cache file or channel name", "statement": "load_data_from_cache_file returns an interferometer exactly for a file of one line whose observatory letter followed by 1 is a known detector and whose frame begins before and ends after both stretches; a stretch that begins or ends with the frame is refused. load_data_by_channel_name takes the detector from the part before the last colon, back to the colon before; without a colon it raises IndexError.", "quantifier": "all cache lines, times and channel names", "why_tests_cant": "All times and texts.", "anchors": ["bilby/gw/detector/__init__.py:load_data_from_cache_file", "bilby/gw/detector/__init__.py:load_data_by_channel_name"]}
{"id": "C190", "title": "The check of the signal duration", "statement": "With both masses check_signal_duration refuses (or warns of) a signal whose 1.1-fold merger time is more than 1/20 s longer than the data and accepts one more than 1/20 s shorter; for data of whole tenths of a second nothing that fits is refused, but a signal 0.04 s too long passes. With one mass alone it raises KeyError even when asked not to raise; without masses it raises or passes as asked; if the conversion fails nothing is checked. time_within_data includes both ends. The default start of get_interferometer_with_fake_noise_and_injection puts the merger 2 s before the end, inside exactly for 2 s or more.", "quantifier": "all parameters, durations and times", "why_tests_cant": "Real arithmetic and all dictionaries.", "anchors": ["bilby/gw/detector/interferometer.py:Interferometer.check_signal_duration", "bilby/gw/utils.py:calculate_time_to_merger", "bilby/gw/detector/strain_data.py:InterferometerStrainData.time_within_data", "bilby/gw/detector/__init__.py:get_interferometer_with_fake_noise_and_injection"]}
{"id": "C191", "title": "Binary waveforms on the frequency grid", "statement": "A waveform returned by lal_binary_black_hole, lal_binary_neutron_star or lal_eccentric_binary_black_hole_no_spins has one value per frequency, vanishes outside [minimum_frequency, maximum_frequency], and inside is what lalsimulation gave at that position (zero beyond its end), times a phase of modulus one for models generated in the time domain; lalsimulation was asked in SI units with the spacing of the array. None is returned only if catch_waveform_errors is set and lalsimulation reported an input outside its domain; other failures are raised.", "quantifier": "all frequency arrays, parameters, keyword arguments and library answers", "why_tests_cant": "The library is arbitrary.", "anchors": ["bilby/gw/source.py:_base_lal_cbc_fd_waveform", "bilby/gw/source.py:lal_binary_black_hole", "bilby/gw/source.py:lal_binary_neutron_star", "bilby/gw/source.py:lal_eccentric_binary_black_hole_no_spins"]}
{"id": "C192", "title": "Waveform arguments", "statement": "The LAL dictionary holds the user's dictionary overwritten by every argument lalsimulation knows (orders, deformabilities, numerical relativity data and modes under their LAL names). An explicit default changes nothing. An argument that neither bilby nor lalsimulation uses makes a working call fail with KeyError('waveform_kwargs') instead of the announced warning; the models on chosen frequencies refuse minimum_frequency and maximum_frequency in this way.", "quantifier": "all dictionaries and arguments", "why_tests_cant": "All dictionaries.", "anchors": ["bilby/gw/source.py:set_waveform_dictionary", "bilby/gw/source.py:_base_lal_cbc_fd_waveform", "bilby/gw/source.py:_base_waveform_frequency_sequence"]}
{"id": "C193", "title": "Relative binning waveforms", "statement": "With fiducial = 1 lal_binary_black_hole_relative_binning is lal_binary_black_hole without the bin edges; lal_binary_neutron_star_relative_binning then fails if bin edges are present. Otherwise both are the model on the bin edges, whatever the band; if lalsimulation's two interfaces agree, the binned waveform is the fiducial one at the positions of the edges.", "quantifier": "all arguments, edges and library answers", "why_tests_cant": "The library is arbitrary.", "anchors": ["bilby/gw/source.py:lal_binary_black_hole_relative_binning", "bilby/gw/source.py:lal_binary_neutron_star_relative_binning", "bilby/gw/source.py:_base_waveform_frequency_sequence"]}
{"id": "C194", "title": "Reduced order quadrature waveforms", "statement": "binary_black_hole_roq returns under 'linear' and 'quadratic' the waveform at exactly the linear and quadratic nodes, in their order and with repetitions, while lalsimulation is asked once at increasing distinct frequencies; precomputed nodes and indices give the same. A waveform error that is caught becomes a TypeError.", "quantifier": "all node arrays and library answers", "why_tests_cant": "All arrays.", "anchors": ["bilby/gw/source.py:_base_roq_waveform", "bilby/gw/source.py:binary_black_hole_roq", "bilby/gw/source.py:binary_neutron_star_roq"]}
{"id": "C195", "title": "The sine-Gaussian", "statement": "For positive Q and frequency the squared modulus of each polarisation of sinegaussian integrates over all frequencies to hrss^2. The plus polarisation is real and even in frequency, the cross polarisation imaginary and odd (zero at zero frequency); above the peak frequency the former falls, below it the latter grows; both are proportional to hrss. Q or frequency zero, or of opposite sign, give no number. For small Q the plus polarisation at zero frequency exceeds that at the peak frequency.", "quantifier": "all hrss, Q, peak frequencies and frequencies", "why_tests_cant": "Improper integrals and inequalities over reals.", "anchors": ["bilby/gw/source.py:sinegaussian"]}
{"id": "C196", "title": "Supernova models", "statement": "supernova returns the file's polarisations sample by sample times 0.01 over luminosity_distance, so the simulated strain itself at 0.01 (10 kpc in Mpc) and not at 10, against its documentation in kpc; the length is that of the file. supernova_pca_model returns twice the same combination, linear in the coefficients, with one component times 1e-23 for a unit coefficient at distance 10. Distance zero fails.", "quantifier": "all files, coefficients and distances", "why_tests_cant": "All arrays and reals.", "anchors": ["bilby/gw/source.py:supernova", "bilby/gw/source.py:supernova_pca_model"]}
{"id": "C197", "title": "Tabulated equations of state", "statement": "TabularEOS accepts every table of at least two rows with positive, strictly increasing pressure and energy density. Its pseudo-enthalpies increase by the trapezoid of p/(e+p) in ln p; at the rows the four conversions return the row, in both interpolation modes; below the first row they are power laws inverse to each other. A table that does not increase is refused with an exception even in sampling mode, where the flag was meant: check_monotonicity is always true. One leading row with a zero is dropped, a second one is fatal. In sampling mode the flag is raised for a sound speed of at least 1.1, not 1, so an unflagged one has a sound speed below 1.1 at its largest pressure.", "quantifier": "all tables, rows, enthalpies below the table; sound speed for all stiff tables", "why_tests_cant": "Arbitrary tables, real exponents, an arbitrary spline.", "anchors": ["bilby/gw/eos/eos.py:TabularEOS.__init__", "bilby/gw/eos/eos.py:TabularEOS.energy_from_pressure", "bilby/gw/eos/eos.py:TabularEOS.pressure_from_pseudo_enthalpy", "bilby/gw/eos/eos.py:TabularEOS.check_monotonicity", "bilby/gw/eos/eos.py:TabularEOS.check_causality", "bilby/gw/eos/eos.py:TabularEOS.energy_density_from_pseudo_enthalpy", "bilby/gw/eos/eos.py:TabularEOS.pseudo_enthalpy_from_energy_density", "bilby/gw/eos/eos.py:TabularEOS.dedh", "bilby/gw/eos/eos.py:TabularEOS.dedp", "bilby/gw/eos/eos.py:TabularEOS.velocity_from_pseudo_enthalpy"]}
{"id": "C198", "title": "Spectral decomposition of an equation of state", "statement": "The energy density of SpectralDecompositionEOS starts at e0 c^2 and is the one function whose derivative in x = ln(p/p0) is (energy + pressure)/Gamma(x), Gamma the exponential of the polynomial; it is positive and increasing, and for one coefficient the closed form of a polytrope. Without xmax the coefficients must be arrays, and the range ends where the last term alone gives the index 6. In sampling mode, without a warning, the index lies between 0.6 and 4.6 at all grid points up to the new end, which is at least 4; a curve in range everywhere loses its last step.", "quantifier": "all coefficients, reference pressures and densities, ranges and grid sizes", "why_tests_cant": "Integrals of exponentials of polynomials, uniqueness of a solution.", "anchors": ["bilby/gw/eos/eos.py:spectral_adiabatic_index", "bilby/gw/eos/eos.py:SpectralDecompositionEOS.mu", "bilby/gw/eos/eos.py:SpectralDecompositionEOS.energy_density", "bilby/gw/eos/eos.py:SpectralDecompositionEOS.__construct_a_of_x_table", "bilby/gw/eos/eos.py:SpectralDecompositionEOS.__determine_xmax"]}
{"id": "C199", "title": "Joined tables and families of stars", "statement": "The table of a spectral decomposition keeps exactly the low-density rows below its first row in both columns and is then acceptable to TabularEOS; if no row but the first is below, the whole low-density table is kept and the result does not increase. EOSFamily's masses increase strictly except that the last two may be equal; its columns belong to the same stars; maximum_mass is the largest mass in solar masses; lambda_from_mass at a star's mass is that star's tidal_deformability. With equal last masses every look-up raises; with a second star no heavier than the first the parabola uses the last energy of the grid.", "quantifier": "all tables, equations of state, grids and integrators", "why_tests_cant": "Arbitrary integrator, spline and grids.", "anchors": ["bilby/gw/eos/eos.py:SpectralDecompositionEOS.__construct_e_of_p_table", "bilby/gw/eos/eos.py:EOSFamily.__init__", "bilby/gw/eos/eos.py:EOSFamily.radius_from_mass", "bilby/gw/eos/eos.py:EOSFamily.lambda_from_mass"]}
{"id": "C200", "title": "Stellar structure and the Love number", "statement": "The right-hand side integrated by IntegrateTOV is the Tolman-Oppenheimer-Volkoff system in the pseudo-enthalpy, with y = rB/H obeying the standard Riccati equation of the tidal perturbation; radius and mass grow outwards; the start has y = 2 and is to leading order a ball of constant density in equilibrium. k2 is Hinderer's formula, and tends to Newton's (2-y)/(2(y+3)) as the compactness goes to zero.", "quantifier": "all densities, pressures, masses, radii and perturbations", "why_tests_cant": "Real identities and a limit of fifth order cancellation, where floating point loses all digits.", "anchors": ["bilby/gw/eos/tov_solver.py:IntegrateTOV.__tov_eqns", "bilby/gw/eos/tov_solver.py:IntegrateTOV.__calc_k2", "bilby/gw/eos/tov_solver.py:IntegrateTOV.__mass_radius_cent", "bilby/gw/eos/tov_solver.py:IntegrateTOV.__init__"]}
{"id": "C201", "title": "Burn-in of an MCMC chain", "statement": "After any history of appending, reading properties and raising indices, minimum_index of a bilby_mcmc chain is the whole part of the largest of the fixed discard, burn_in_nact times the last known tau, one past the first point from the hundredth on whose hundred-point mean log posterior is within ndim/2 of the largest value seen, and the largest indices set by proposals and temperature adaptation. It is at least the fixed discard except at the very first point, where it is 0. Reading it twice gives the same. An index raised after it has been read at a position is only seen from the next point on.", "quantifier": "all chains, settings, histories of operations and autocorrelation estimators", "why_tests_cant": "Caches, setters and the estimator interact over arbitrary histories.", "anchors": ["bilby/bilby_mcmc/chain.py:Chain.minimum_index", "bilby/bilby_mcmc/chain.py:Chain.minimum_index_proposal", "bilby/bilby_mcmc/chain.py:Chain.minimum_index_adapt", "bilby/bilby_mcmc/chain.py:Chain.fixed_discard", "bilby/bilby_mcmc/chain.py:Chain._calculate_tau_dict"]}
{"id": "C202", "title": "Autocorrelation time, thinning and number of samples of a chain", "statement": "tau is never below min_tau; it is the largest rounded estimate over the parameters, infinite with fewer than 2 autocorr_c points after the burn-in or with a parameter that has not moved. A tau known at the position is returned; otherwise the last one is taken over at most 50 times before it is worked out again. In every history nsamples is between 0 and the number of points after the burn-in, 0 with an infinite tau, else the number of whole multiples of thin_by_nact tau - but 0 if that exceeds the number of points, so with thin_by_nact tau <= 1/2 it is always 0. The rows of samples are evenly spaced, after the burn-in and before the newest point, and at least nsamples many. thin is at least 1; it raises OverflowError when the tau is taken over for the fiftieth time and the fresh one is infinite.", "quantifier": "all chains, settings, histories and estimators", "why_tests_cant": "Counters and caches over arbitrary histories; the failure needs the fiftieth reuse.", "anchors": ["bilby/bilby_mcmc/chain.py:Chain.tau", "bilby/bilby_mcmc/chain.py:Chain.tau_nocache", "bilby/bilby_mcmc/chain.py:Chain.thin", "bilby/bilby_mcmc/chain.py:Chain.nsamples", "bilby/bilby_mcmc/chain.py:Chain.nsamples_last", "bilby/bilby_mcmc/chain.py:Chain.samples", "bilby/bilby_mcmc/chain.py:calculate_tau"]}
{"id": "C203", "title": "Temperature ladder and set of samplers", "statement": "The ladder of BilbyPTMCMCSampler has ntemps entries or construction fails; with one temperature it is [1] whatever was given; from Tmax it runs from 1 to 1/Tmax, from Tmax_from_SNR from 1 to ndim/SNR^2 - above 1 if SNR^2 < ndim, and such samplers are in neither list. Every sampler carries the indices of its place, so stepping through a pool equals stepping in place; every rung of every ladder used for swaps exists. On a ladder that starts at 1 the zero-temperature samplers are the nensemble of the first rung. With pt_rejection_sample nsamples counts the samples returned plus, again, all rows of every zero-temperature member but the first. A ladder without 1 has no samples and count 0.", "quantifier": "all ladders, ensembles, step functions keeping indices, samples", "why_tests_cant": "Arbitrary ladders and samplers; the double count needs ensembles with rejection.", "anchors": ["bilby/bilby_mcmc/sampler.py:BilbyPTMCMCSampler.get_initial_betas", "bilby/bilby_mcmc/sampler.py:BilbyPTMCMCSampler.setup_sampler_dictionary", "bilby/bilby_mcmc/sampler.py:BilbyPTMCMCSampler.sampler_list", "bilby/bilby_mcmc/sampler.py:BilbyPTMCMCSampler.sampler_list_of_tempered_lists", "bilby/bilby_mcmc/sampler.py:BilbyPTMCMCSampler._calculate_nsamples", "bilby/bilby_mcmc/sampler.py:BilbyPTMCMCSampler.samples"]}
{"id": "C204", "title": "Rejection of hot samples to zero temperature", "statement": "rejection_sample_zero_temperature_samples keeps a row between burn-in and position exactly when its uniform number is below (L / Lmax)^(1 - beta), whatever the noise likelihood; at beta = 1 every row is kept. Where the data frame shares memory with the chain and the likelihood ratio is used, the kept rows carry the noise likelihood added, and each call adds it again to the chain's stored values, so that k calls add k times and rows seen before lose against equal new ones.", "quantifier": "all chains, temperatures, noise likelihoods and uniform numbers", "why_tests_cant": "Aliasing over repeated calls; real exponents.", "anchors": ["bilby/bilby_mcmc/sampler.py:BilbyMCMCSampler.rejection_sample_zero_temperature_samples"]}
{"id": "C205", "title": "Starting and stopping bilby_mcmc", "statement": "The drawing loop ends in the first round where the last recorded count and a fresh count both reach target_nsamples; the recorded count changes only with a progress message or a failed fresh count, so without messages the loop never ends. The progress message raises ZeroDivisionError exactly when pt_rejection_sample is set and there are no samples yet. The initial maximum maximises beta lnL + ln prior over the box if the prior vanishes nowhere in it; otherwise exactly the points of zero prior are optimal.", "quantifier": "all sequences of rounds, likelihoods, priors and temperatures", "why_tests_cant": "Termination over unbounded runs; optimality over all points.", "anchors": ["bilby/bilby_mcmc/sampler.py:Bilby_MCMC.draw", "bilby/bilby_mcmc/sampler.py:Bilby_MCMC.print_progress", "bilby/bilby_mcmc/sampler.py:BilbyPTMCMCSampler.nsamples_last", "bilby/bilby_mcmc/sampler.py:BilbyPTMCMCSampler.nsamples_nocache", "bilby/bilby_mcmc/sampler.py:get_initial_maximimum_posterior_sample"]}
{"id": "C206", "title": "Proposals move what they may and can be undone", "statement": "A bilby_mcmc proposal moves the sampled parameters of its subset and cannot be built exactly if there are none. Whatever the random numbers it keeps the keys and leaves all other parameters alone - except FixedJumpProposal with a dictionary, which moves its keys inside the subset or not. After a proposal with log factor zero every periodic or reflective parameter it moves is in its interval; with another factor it may be outside. The Gaussian proposals lead back with the same draws up to signs, across boundaries; differential evolution leads back with its two points exchanged if no parameter is reflective, and need not otherwise. The prior proposal's factor balances: density times acceptance is equal both ways.", "quantifier": "all priors, subsets, points, random numbers", "why_tests_cant": "Arbitrary draws and boundaries; reversibility is about all pairs of points.", "anchors": ["bilby/bilby_mcmc/proposals.py:BaseProposal.__init__", "bilby/bilby_mcmc/proposals.py:BaseProposal.apply_boundaries", "bilby/bilby_mcmc/proposals.py:BaseProposal.__call__", "bilby/bilby_mcmc/proposals.py:FixedGaussianProposal.propose", "bilby/bilby_mcmc/proposals.py:AdaptiveGaussianProposal.propose", "bilby/bilby_mcmc/proposals.py:DifferentialEvolutionProposal.propose", "bilby/bilby_mcmc/proposals.py:UniformProposal.propose", "bilby/bilby_mcmc/proposals.py:PriorProposal.propose", "bilby/bilby_mcmc/proposals.py:FixedJumpProposal.propose", "bilby/bilby_mcmc/proposals.py:FisherMatrixProposal.propose", "bilby/bilby_mcmc/proposals.py:StretchProposal.propose"]}
{"id": "C207", "title": "Proposals that learn a density", "statement": "If every attempt completes, the density is fitted in the calls F, F + Fm, F + Fm + Fm^2, ...; a fit that raises is tried again in the very next call. Until the first success the fallback proposes, afterwards a density for ever; without an exception after a fit it is one that passed the comparison with the verification data, with one it need not be. For mixtures of two or more parameters the comparison fails exactly if some parameter's draws are narrower than a tenth of the data; with one parameter it always fails, unless the data are constant, so the density is never used; kernel densities are compared along the wrong axis. The fallback's scale never adapts.", "quantifier": "all histories of calls, fits and draws", "why_tests_cant": "Histories of arbitrary length with failures at any point.", "anchors": ["bilby/bilby_mcmc/proposals.py:DensityEstimateProposal.__init__", "bilby/bilby_mcmc/proposals.py:DensityEstimateProposal.refit", "bilby/bilby_mcmc/proposals.py:DensityEstimateProposal.propose", "bilby/bilby_mcmc/proposals.py:KDEProposal._sample", "bilby/bilby_mcmc/proposals.py:GMMProposal._sample"]}
{"id": "C208", "title": "Ensemble steps", "statement": "One step of an ensemble moves its members in turn, member i against another member drawn by index: in its new state if it comes before i, in its old state if after. Each member gets exactly one new entry in its chain, its current point, and one count of accepted or rejected; the point changes only if accepted. A single member does not move and gets no entry. No step leaves the support of the prior. A stretch by z is accepted exactly when u <= z^(n-1) (L'/L)^beta p'/p.", "quantifier": "all ensembles, likelihoods, priors, temperatures and draws", "why_tests_cant": "Order of updates inside a loop, arbitrary likelihoods.", "anchors": ["bilby/bilby_mcmc/proposals.py:EnsembleProposal.__call__", "bilby/bilby_mcmc/proposals.py:EnsembleStretch.propose", "bilby/bilby_mcmc/sampler.py:BilbyPTMCMCSampler.ensemble_step", "bilby/bilby_mcmc/sampler.py:BilbyMCMCSampler.accept_proposal", "bilby/bilby_mcmc/sampler.py:BilbyMCMCSampler.reject_proposal"]}
{"id": "C209", "title": "Proposal cycles from a string", "statement": "'no' and two letters in the string removes exactly the proposals of that class, 'noAG' the Fisher matrix ones too; with a separator ('noDE_noGM') nothing is removed for that tag. In the default cycle every proposal moves all sampled parameters. The gwA cycle can be built exactly if the priors are CBC priors, sklearn is there, a parameter without 'recalib' is sampled and the groups primary spin and mass ratio, in-plane spins and calibration each have a sampled member where they are asked for; masses with a_2 alone raise ValueError. Without removals it reaches every sampled parameter, with removals not. The cycle has 10 floor(sum/min) entries, at least ten per proposal; none left, ValueError. Phase proposals raise KeyError when phase is fixed and delta_phase sampled.", "quantifier": "all priors, strings and weights", "why_tests_cant": "String parsing and conditions over arbitrary sets of priors.", "anchors": ["bilby/bilby_mcmc/proposals.py:get_proposal_cycle", "bilby/bilby_mcmc/proposals.py:remove_proposals_using_string", "bilby/bilby_mcmc/proposals.py:get_default_ensemble_proposal_cycle", "bilby/bilby_mcmc/proposals.py:ProposalCycle.__init__", "bilby/bilby_mcmc/proposals.py:ProposalCycle.get_proposal", "bilby/bilby_mcmc/proposals.py:PhaseReversalProposal.propose", "bilby/bilby_mcmc/proposals.py:PhasePolarisationReversalProposal.propose"]}
{"id": "C210", "title": "Priors handed to PyMC", "statement": "set_prior gives PyMC a density equal to bilby's prior density for Gaussian, TruncatedGaussian, HalfGaussian, LogNormal, Uniform, Exponential, StudentT, Logistic, Cauchy, Gamma, ChiSquared and Beta on [0, 1] (Gamma and ChiSquared away from 0), under both names of each; for Sine and Cosine on their full range. On a part of the range, and for a power law with alpha > -1, it is bilby's density times a constant. A power law with alpha < -1 gets density zero everywhere, and Beta always the range [0, 1]. A class is recognised by its exact name: any name not in the table, such as Constraint, Triangular or a conditional prior, raises ValueError.", "quantifier": "all parameters of the priors and all points", "why_tests_cant": "Agreement of densities at all points and for all parameters.", "anchors": ["bilby/core/sampler/pymc.py:Pymc.setup_prior_mapping", "bilby/core/sampler/pymc.py:Pymc.set_prior", "bilby/core/sampler/pymc.py:Pymc._deltafunction_prior", "bilby/core/sampler/pymc.py:Pymc._sine_prior", "bilby/core/sampler/pymc.py:Pymc._cosine_prior", "bilby/core/sampler/pymc.py:Pymc._powerlaw_prior"]}
{"id": "C211", "title": "Likelihoods handed to PyMC", "statement": "For a Gaussian likelihood with known sigma > 0, a Poisson or Exponential one with positive rates or means, and a StudentT one with known nu > 0, the log likelihood PyMC builds is bilby's at every point, if every prior key but sigma or nu is an argument of the function; another key raises ValueError. A sigma to be sampled raises TypeError, a nu to be sampled never works. With a rate of zero and a zero count bilby's value is minus infinity and PyMC's finite. Keyword arguments given to the likelihood for its function are not used.", "quantifier": "all functions, data, points and parameters", "why_tests_cant": "Agreement at all points; missing cases only show with sampled noise parameters.", "anchors": ["bilby/core/sampler/pymc.py:Pymc.set_likelihood"]}
{"id": "C212", "title": "Step methods of PyMC", "statement": "With any step method other than NUTS every method gets exactly its own entry of step_kwargs (or no arguments), and NUTS the given nuts_kwargs or else the single NUTS arguments; with NUTS alone no method is passed and these go to pymc.sample. What step_kwargs holds for NUTS is never used.", "quantifier": "all lists of methods and arguments", "why_tests_cant": "All combinations of three ways to give arguments.", "anchors": ["bilby/core/sampler/pymc.py:Pymc._create_args_and_nuts_kwargs", "bilby/core/sampler/pymc.py:Pymc._create_nuts_kwargs", "bilby/core/sampler/pymc.py:Pymc._get_nuts_args", "bilby/core/sampler/pymc.py:Pymc.run_sampler"]}
{"id": "C213", "title": "Samples and errors of the evidence of bilby_mcmc", "statement": "The stepping stone uses the same rows of every chain but the coldest, int(tau) apart from the last burn-in to the end of the shortest chain. It is nan exactly if tau is infinite or at most one row is common, its error also if the rows are no more than 50 tau. The bootstrap draws 50 rows fewer than there are, never the last one. Estimate and error are bounded by (beta_max - beta_min) times the extremes of the log likelihoods and their difference. Thermodynamic integration of means affine in beta is exact; its error is 0 for an odd number of chains, the integral over the hottest interval for an even number, and the size of the estimate itself for two chains. A nan in one ensemble makes the result nan, as do one temperature or an unknown method. Errors of ensembles are combined as logarithms, so doubling them does not double the result.", "quantifier": "all chains, ladders, burn-ins, autocorrelation times and random draws", "why_tests_cant": "All chains and draws; parity of the ladder.", "anchors": ["bilby/bilby_mcmc/sampler.py:BilbyPTMCMCSampler.compute_evidence", "bilby/bilby_mcmc/sampler.py:BilbyPTMCMCSampler.compute_evidence_per_ensemble", "bilby/bilby_mcmc/sampler.py:BilbyPTMCMCSampler.thermodynamic_integration_evidence", "bilby/bilby_mcmc/sampler.py:BilbyPTMCMCSampler.stepping_stone_evidence", "bilby/bilby_mcmc/sampler.py:BilbyPTMCMCSampler._calculate_stepping_stone", "bilby/bilby_mcmc/sampler.py:BilbyPTMCMCSampler._compute_evidence_from_mean_lnlikes", "bilby/bilby_mcmc/sampler.py:BilbyPTMCMCSampler.ln_z", "bilby/bilby_mcmc/sampler.py:BilbyPTMCMCSampler.ln_z_err"]}
{"id": "C214", "title": "What the checks of a ROQ likelihood guarantee", "statement": "If the parameter check passes, the frequencies of every detector divided by roq_scale_factor lie in the band of the basis and its duration times the factor is the length of the basis; and every binary the priors allow has scaled chirp mass and component masses in the bounds of the basis, as far as the basis has them and the prior limits can be determined from chirp_mass, mass_1, mass_2 and mass_ratio - priors in total mass are not checked. It fails only for such a reason. With two basis files the data must be in both bands and as long as the shorter; the other basis may be longer. Given roq_params replace what files say; with given weights, or with plain matrices and no roq_params, nothing is checked. With several bases each has nodes and one prior range per parameter; a single one takes its nodes from the weights, else the waveform arguments.", "quantifier": "all bases, scale factors, detectors, priors and binaries", "why_tests_cant": "A guarantee for all binaries of the prior.", "anchors": ["bilby/gw/likelihood/roq.py:ROQGravitationalWaveTransient.perform_roq_params_check", "bilby/gw/likelihood/roq.py:ROQGravitationalWaveTransient.__init__", "bilby/gw/likelihood/roq.py:ROQGravitationalWaveTransient._verify_numbers_of_prior_ranges_and_frequency_nodes", "bilby/gw/likelihood/roq.py:ROQGravitationalWaveTransient._check_frequency_nodes_exist_for_single_basis"]}
{"id": "C215", "title": "The gwsignal binary black hole model", "statement": "A returned waveform has one value per frequency, is zero outside the band, and inside it is the generator's value there (zero beyond its end) times, for a time-domain model, the phase of a time shift. The generator is given the binary's masses, distance, phase, spins and inclination, the spacing, band and start frequency, and the chosen modes; any further keyword is passed on, and one named like a generator argument, e.g. mass1, silently replaces the binary's own value. pn_spin_order, pn_tidal_order, pn_phase_order and numerical_relativity_file never reach the generator. The start frequency is 2 fmin / (order + 2), fmin / 4 for order -1. Only three approximants are accepted. None is returned exactly if errors are caught and the error names an input domain error.", "quantifier": "all frequency arrays, binaries, keyword arguments and generators", "why_tests_cant": "All generators and arguments.", "anchors": ["bilby/gw/source.py:gwsignal_binary_black_hole"]}
{"id": "C216", "title": "Combining a list of results", "statement": "None or one result comes back as it is. Otherwise label gets _combined and everything but posterior, evidence, error, Bayes factor and nested samples is the first result's. At level error, the default of combine whatever the list was built with, results are combined only if sampler, noise evidence (within 1e-8 or all nan), search parameters and - unless the first has no prior - priors agree; results that agree are combined alike at every level; at warning and ignore others are too, if each has the first's prior keys, a posterior, and nested samples if the first has; unknown levels raise ValueError. With nested samples in the first the evidence is the mean, rows come from the runs and a run of largest evidence keeps all; one nan evidence leaves no sample at all. bilby_mcmc results keep all rows with the mean evidence; any other sampler keeps all rows with the evidence of the first run alone.", "quantifier": "all lists of results, levels, shuffles and random numbers", "why_tests_cant": "All lists of results and levels.", "anchors": ["bilby/core/result.py:ResultList.combine", "bilby/core/result.py:ResultList._error_or_warning_consistency", "bilby/core/result.py:ResultList.check_consistent_data", "bilby/core/result.py:ResultList.check_consistent_sampler", "bilby/core/result.py:ResultList.check_consistent_parameters", "bilby/core/result.py:ResultList.check_nested_samples"]}
{"id": "C217", "title": "Building a multivariate Gaussian prior", "statement": "Bounds given as a list are accepted exactly if there is one pair per name with lower below upper; in any other container they are silently dropped. A mode that is added stores the means as given, zeros if none, and covariance, correlations and standard deviations that belong together, cov_ij = sigma_i sigma_j corr_ij, of the right size, symmetric within 1e-8 + 1e-5 of the entry and positive definite, and a weight, 1 if none; a covariance wins over correlations, which count only together with sigmas. Every such mode is accepted. As long as no call fails mode i is what the i-th call asked for; with one mode the arguments may be given with or without the outer list, with several they must be lists of one entry per mode. The number of means is not checked, and a mode refused for its matrix leaves its means behind, so the next mode is paired with them.", "quantifier": "all names, bounds, means, matrices and weights", "why_tests_cant": "Arbitrary dimensions, matrices and sequences of modes, including refused ones.", "anchors": ["bilby/core/prior/joint.py:BaseJointPriorDist.__init__", "bilby/core/prior/joint.py:MultivariateGaussianDist.__init__", "bilby/core/prior/joint.py:MultivariateGaussianDist.add_mode"]}
{"id": "C218", "title": "Linear coefficients of the multi-band likelihood", "statement": "The waveform is evaluated once at each of the banded frequencies, in increasing order, and re-indexing gives back each band's own values. The linear coefficient at k/duration of a band is 4/duration times the window there times the conjugate of the whitened data at that frequency, minus the contribution of the time samples the band discards. If the whitened data of every band is confined to the samples kept, d_inner_h is exactly the banded sum; with one band and no interpolation it is 4/T times the sum of window conj(h) d / S over the mask. Data outside the samples kept changes it.", "quantifier": "all bands, data, spectra, masks and waveforms", "why_tests_cant": "An identity between transforms of all lengths.", "anchors": ["bilby/gw/likelihood/multiband.py:MBGravitationalWaveTransient._setup_waveform_frequency_points", "bilby/gw/likelihood/multiband.py:MBGravitationalWaveTransient._setup_linear_coefficients", "bilby/gw/likelihood/multiband.py:MBGravitationalWaveTransient.calculate_snrs"]}
{"id": "C219", "title": "Saved multi-band weights, defaults and buffers", "statement": "Weights saved and restored, from the dictionary or from a file that lists its members alphabetically, give a fresh likelihood every saved attribute, for either way of computing <h,h> and any number of bands. An order with maximum_banding_frequency before highest_mode raises AttributeError. The default time offset is at least the time from any arrival to the end of the data for every time of the prior and every light-travel delay, and the default taper at least 100 over it; a prior that reaches the end of the data gives a negative taper without a message. The buffers kept between evaluations carry nothing over.", "quantifier": "all likelihood objects, orders of entries, prior ranges and sequences of evaluations", "why_tests_cant": "Any number of bands and evaluations, any order in a file.", "anchors": ["bilby/gw/likelihood/multiband.py:MBGravitationalWaveTransient.weights", "bilby/gw/likelihood/multiband.py:MBGravitationalWaveTransient.save_weights", "bilby/gw/likelihood/multiband.py:MBGravitationalWaveTransient.setup_multibanding_from_weights", "bilby/gw/likelihood/multiband.py:MBGravitationalWaveTransient.time_offset", "bilby/gw/likelihood/multiband.py:MBGravitationalWaveTransient.delta_f_end", "bilby/gw/likelihood/multiband.py:MBGravitationalWaveTransient.reference_chirp_mass", "bilby/gw/likelihood/multiband.py:MBGravitationalWaveTransient.highest_mode", "bilby/gw/likelihood/multiband.py:MBGravitationalWaveTransient.linear_interpolation", "bilby/gw/likelihood/multiband.py:MBGravitationalWaveTransient.accuracy_factor", "bilby/gw/likelihood/multiband.py:MBGravitationalWaveTransient.maximum_banding_frequency", "bilby/gw/likelihood/multiband.py:MBGravitationalWaveTransient.minimum_banding_duration"]}
{"id": "C220", "title": "The quadratic term of the multi-band likelihood", "statement": "With the IFFT-FFT way of computing <h,h> the contribution of a band is 4/T times the sum over all frequencies up to the Nyquist frequency of |h_b|^2 over the spectrum, where h_b is the transform of a real series no longer than the shortened band, equal to the waveform times the root of the window at each banded frequency. With a band that is not shortened it is exactly 4/T times the sum of window |h|^2 / S over the band; if no later band is shortened, <h,h> is the plain sum of these over all bands, with the masked frequencies left out, the first band like the others. The largest frequency of every band lies strictly below the Nyquist frequency of its shortened series, so nothing is cut off. <h,h> is a number of at least 0 whatever waveform, mask and number of bands.", "quantifier": "all bands, shortening factors, spectra, masks, windows and waveforms", "why_tests_cant": "An identity between transforms of different lengths.", "anchors": ["bilby/gw/likelihood/multiband.py:MBGravitationalWaveTransient._setup_quadratic_coefficients_ifft_fft", "bilby/gw/likelihood/multiband.py:MBGravitationalWaveTransient.calculate_snrs", "bilby/gw/likelihood/multiband.py:MBGravitationalWaveTransient._setup_integers"]}
{"id": "C221", "title": "Arguments, burn-in and steps of the ensemble samplers", "statement": "Every argument of emcee, zeus and kombine reaches exactly one of the constructor and sample(), with its value and the name the installed version uses, except mh_proposal with emcee 3 and start (rstate0) of zeus, which are never used; nothing else is passed. A python burn-in number from 0 on is accepted exactly if it leaves a step, and drops just that many. A negative one keeps only that many last steps; one of numpy's types is ignored in favour of the estimate. An estimate above the number of steps raises an error, one equal to it gives an empty result. However often a run is resumed the chain has the requested number of steps. Kombine's automatic burn-in of any length leaves the requested iterations, but after resuming its steps count as iterations.", "quantifier": "all dictionaries of arguments, burn-in numbers, lengths and interruptions", "why_tests_cant": "All combinations of arguments, and any sequence of interruptions.", "anchors": ["bilby/core/sampler/emcee.py:Emcee._translate_kwargs", "bilby/core/sampler/emcee.py:Emcee.sampler_function_kwargs", "bilby/core/sampler/emcee.py:Emcee.sampler_init_kwargs", "bilby/core/sampler/emcee.py:Emcee.nburn", "bilby/core/sampler/emcee.py:Emcee._previous_iterations", "bilby/core/sampler/emcee.py:Emcee.__init__", "bilby/core/sampler/zeus.py:Zeus._translate_kwargs", "bilby/core/sampler/zeus.py:Zeus.sampler_function_kwargs", "bilby/core/sampler/zeus.py:Zeus.sampler_init_kwargs", "bilby/core/sampler/zeus.py:Zeus.run_sampler", "bilby/core/sampler/kombine.py:Kombine.__init__", "bilby/core/sampler/kombine.py:Kombine.sampler_function_kwargs", "bilby/core/sampler/kombine.py:Kombine.sampler_burnin_kwargs", "bilby/core/sampler/kombine.py:Kombine.sampler_init_kwargs", "bilby/core/sampler/kombine.py:Kombine.run_sampler"]}
{"id": "C222", "title": "Injecting a signal into a detector and a network", "statement": "After an injection the data are the data before plus the detector's response inside the frequency mask and the response alone outside it; the recorded optimal SNR is the root of 4/T times the sum over the band of |h|^2 over the windowed spectral density, the recorded matched filter SNR is taken with the data after the injection and so exceeds the one before by the optimal SNR; without noise the two are equal. A signal without power gives optimal SNR 0, matched filter nan and no error. Two injections give the same data in either order, and the record of the second. Polarizations that are given win over a waveform generator; if neither is there, or they do not fit, an error leaves the detector as it was. In a network every detector gets its own response of the same polarizations, generated once; if one detector fails, those before it keep the signal. The spectral density asked for before the frequency-domain data were first read lacks the window factor, and so does the optimal SNR computed from it.", "quantifier": "all data, spectra, masks, signals, antenna responses and networks", "why_tests_cant": "Any data and sequence of injections; failure at any detector.", "anchors": ["bilby/gw/detector/interferometer.py:Interferometer.inject_signal", "bilby/gw/detector/interferometer.py:Interferometer.inject_signal_from_waveform_generator", "bilby/gw/detector/interferometer.py:Interferometer.inject_signal_from_waveform_polarizations", "bilby/gw/detector/interferometer.py:Interferometer.power_spectral_density_array", "bilby/gw/detector/interferometer.py:Interferometer.optimal_snr_squared", "bilby/gw/detector/interferometer.py:Interferometer.matched_filter_snr", "bilby/gw/detector/networks.py:InterferometerList.inject_signal"]}
{"id": "C223", "title": "Simulated noise belongs to its spectral density", "statement": "With an even number of samples the simulated noise is zero at frequency 0, at the Nyquist frequency and where the curve does not reach, and elsewhere the normal draws times the root of S T / 4; hence its noise-weighted inner product with itself is the sum of the squares of the draws, whatever curve and duration. The time series is real and gives the frequency series back exactly. A curve c^2 times as high gives noise c times as large. With an odd number of samples the spacing of the frequencies used for the noise differs from 1/duration and the last value is kept.", "quantifier": "all curves, durations, sampling frequencies and draws", "why_tests_cant": "All draws, curves and lengths, and both parities.", "anchors": ["bilby/core/utils/series.py:create_white_noise", "bilby/core/utils/series.py:create_frequency_series", "bilby/gw/detector/psd.py:PowerSpectralDensity.get_noise_realisation"]}
{"id": "C224", "title": "Length of the random walks of the dynesty sampler", "statement": "With at least ten live points the number of steps of a walk is always between 1 and maxmcmc, whatever is reported of the acceptances, and the number kept internally stays below the larger of its start and 2 target maxmcmc. With a constant acceptance fraction p it approaches target / p by the factor 1 - 1 / (nlive // 10) with every update. A walk in which nothing was accepted multiplies it by 1 + (2 target - 1) / (nlive // 10), which more than doubles it if 2 target - 1 is above nlive // 10. An update asks for the cache to be rebuilt exactly if some call since the last one reported that a single cached point remained. With fewer than ten live points the update raises ZeroDivisionError.", "quantifier": "all histories of acceptances, targets, limits and numbers of live points", "why_tests_cant": "Any history of updates.", "anchors": ["bilby/core/sampler/dynesty_utils.py:LivePointSampler.update_user"]}
{"id": "C225", "title": "Parameters inferred from a function and the calls made with them", "statement": "A likelihood around a function samples exactly the positional parameters after the first that are not given as fixed keywords; keyword-only ones never, so one without default always fails unless fixed. With a value for each the function is called without error exactly if it can take the data first, its later parameters can be passed by name or have a default and are swallowed by **kwargs, and the fixed keywords are known to it, do not name the data and include all required keyword-only ones. The data then go to the first parameter, every other one gets its fixed value, else its sampled value - except a positional-only one with default, which silently keeps its default. A bound method behaves as the function without self; other callables raise ValueError. Conditions of a prior are computed exactly if the variables given are those inferred, each arriving at its name. As Gaussian process mean model a bound method never works. A population function works only if its first argument is called data, dataset, self or cls.", "quantifier": "all signatures, fixed keywords, parameter dictionaries and data", "why_tests_cant": "All signatures of functions and all dictionaries.", "anchors": ["bilby/core/utils/introspection.py:infer_parameters_from_function", "bilby/core/utils/introspection.py:infer_args_from_method", "bilby/core/utils/introspection.py:infer_args_from_function_except_n_args", "bilby/core/utils/introspection.py:_infer_args_from_function_except_for_first_arg", "bilby/core/likelihood.py:Analytical1DLikelihood.__init__", "bilby/core/likelihood.py:Analytical1DLikelihood.residual", "bilby/core/likelihood.py:Analytical1DLikelihood.model_parameters", "bilby/core/likelihood.py:Analytical1DLikelihood.function_keys", "bilby/core/likelihood.py:_function_to_gp_model", "bilby/core/prior/conditional.py:conditional_prior_factory", "bilby/hyper/model.py:Model._get_function_parameters"]}
{"id": "C226", "title": "Settings under the names of each sampler", "statement": "Whichever of bilby's names for the number of live points the user writes (the first in bilby's order if several), nestle gets it as npoints, cpnest and PolyChord as nlive and MultiNest as n_live_points; a seed under any of its names reaches cpnest, PolyChord, MultiNest and DNest4 under theirs, the number of threads reaches cpnest and the burn-in PTMCMC. DNest4 takes the number of particles under num_particles only, and drops the other names; nestle and PTMCMC drop a seed; PTMCMC takes a number of walkers for its number of iterations; PolyChord's own dictionary nlives is taken for nlive. While nestle is verbose the callback of the user is replaced. PolyChord without settings gets 25 live points and 5 repeats for each parameter. Every PTMCMC setting but p0 and custom_proposals goes to exactly one of the constructor and the run. A configuration file of nessai wins over the arguments of the call, and these over the defaults.", "quantifier": "all dictionaries of keyword arguments and defaults", "why_tests_cant": "All subsets of the aliases with any values.", "anchors": ["bilby/core/sampler/nestle.py:Nestle._translate_kwargs", "bilby/core/sampler/nestle.py:Nestle._verify_kwargs_against_default_kwargs", "bilby/core/sampler/cpnest.py:Cpnest._translate_kwargs", "bilby/core/sampler/nessai.py:Nessai._translate_kwargs", "bilby/core/sampler/nessai.py:Nessai._verify_kwargs_against_default_kwargs", "bilby/core/sampler/polychord.py:PyPolyChord._translate_kwargs", "bilby/core/sampler/polychord.py:PyPolyChord._setup_dynamic_defaults", "bilby/core/sampler/pymultinest.py:Pymultinest._translate_kwargs", "bilby/core/sampler/dnest4.py:DNest4._translate_kwargs", "bilby/core/sampler/ptmcmc.py:PTMCMCSampler._translate_kwargs", "bilby/core/sampler/ptmcmc.py:PTMCMCSampler.sampler_init_kwargs", "bilby/core/sampler/ptmcmc.py:PTMCMCSampler.sampler_function_kwargs"]}
{"id": "C227", "title": "Refused sampling sets and given starting points", "statement": "With the binary black hole or neutron star priors a run is refused exactly if a group of related parameters has more sampled members than degrees of freedom, or as many and a fixed member besides; constraints never matter, and fixed parameters that contradict each other are not found. Otherwise it starts if the likelihood can be evaluated at one draw, whatever its value. For emcee, zeus and kombine a given array is used, row by row, exactly if its shape without axes of length one is (walkers, parameters); points of zero prior or likelihood are only reported. Hence with one parameter or one walker every array is refused. A data frame works for any number; its columns are found by name. For ptemcee a dictionary of (temperatures, walkers) arrays puts entry [t, w] of each named array at [t, w, j]; missing names raise KeyError, other shapes ValueError.", "quantifier": "all prior dictionaries, arrays, data frames, dictionaries and numbers of walkers", "why_tests_cant": "All sets of parameters and all shapes.", "anchors": ["bilby/core/prior/dict.py:PriorDict.test_has_redundant_keys", "bilby/core/sampler/base_sampler.py:Sampler._verify_parameters", "bilby/core/sampler/emcee.py:Emcee._set_pos0", "bilby/core/sampler/ptemcee.py:Ptemcee.get_pos0", "bilby/core/sampler/ptemcee.py:Ptemcee.get_pos0_from_array", "bilby/core/sampler/ptemcee.py:Ptemcee.get_pos0_from_dict"]}
{"id": "C228", "title": "Detector data saved as text and read again", "statement": "Data and amplitude spectral density written by save_data and given to a new detector with the same frequency limits give the same data inside the limits, the same duration and the spectral density with the window factor already in it (the factor of the new detector is 1), hence the same optimal and matched filter SNR for every signal, and an injection into it gives the same data and the same record as into the first. Outside the limits zeros are saved, so wider limits do not bring the data back. The saved density has the window factor in it even if it was not known before the call; the one asked for before does not.", "quantifier": "all detectors with data in time or frequency, masks, spectra and signals", "why_tests_cant": "All data, masks and spectra.", "anchors": ["bilby/gw/detector/interferometer.py:Interferometer.save_data", "bilby/gw/detector/interferometer.py:Interferometer.set_strain_data_from_frequency_domain_strain", "bilby/gw/detector/interferometer.py:Interferometer.amplitude_spectral_density_array", "bilby/gw/detector/strain_data.py:InterferometerStrainData.set_from_frequency_domain_strain", "bilby/gw/detector/psd.py:PowerSpectralDensity"]}
{"id": "C229", "title": "How the settings of ultranest, nessai and cpnest reach their calls", "statement": "Without a number of live points every setting of ultranest but update_interval_iter and the step sampler, which is attached afterwards, reaches exactly one of constructor and run, unchanged; dlogz only if it is not None, and without a callback bilby's own. With a number of live points min_ess, dKL, frac_remain, max_ncalls, show_status, the callback and nine others silently arrive nowhere, so bilby copies no intermediate results. A second run of the same object fails if dlogz was None. nessai's settings are split by its own list of run arguments without loss, the plotting of the run being nessai_plot. If cpnest's constructor raises TypeError, for whatever reason, it is tried without the user's proposals and then without checkpoints, so the first accepted of the three is used. A jump proposal cycle serves both kinds of walk of cpnest; a dictionary is converted in place entry by entry, so that one with such a cycle works for one run only. The fake sampler gives the likelihood ratio at each row in order; while verbose it fails if the file has no log_likelihood.", "quantifier": "all dictionaries of settings, constructors and posterior files", "why_tests_cant": "Any combination of settings; any behaviour of the constructor.", "anchors": ["bilby/core/sampler/ultranest.py:Ultranest.sampler_function_kwargs", "bilby/core/sampler/ultranest.py:Ultranest.sampler_init_kwargs", "bilby/core/sampler/ultranest.py:Ultranest.run_sampler", "bilby/core/sampler/ultranest.py:Ultranest._verify_kwargs_against_default_kwargs", "bilby/core/sampler/nessai.py:Nessai.split_kwargs", "bilby/core/sampler/nessai.py:Nessai.run_kwargs_list", "bilby/core/sampler/cpnest.py:Cpnest.run_sampler", "bilby/core/sampler/cpnest.py:Cpnest._resolve_proposal_functions", "bilby/core/sampler/fake_sampler.py:FakeSampler.run_sampler"]}
{"id": "C230", "title": "Schedule of parallel-tempered ensembles in bilby-mcmc", "statement": "At every call of step_all_chains all chains step. With period L2steps the members of ensembles move, first at call ceil(L2/2) - 1 (from 0), and neighbouring temperatures swap, first at call L2; for L2 above 2 never at the same call, for 1 or 2 every swap follows ensemble moves. After N calls there were (N - 1) // L2 rounds of swaps and (N + L2 // 2) // L2 of ensemble moves; with one temperature or one member none. The ladder is adapted after a round exactly if adaptation was asked for and the primary chain is shorter than 10 adapt_t0; once off it stays off, and the samples it discards all lie before 10 adapt_t0. A primary chain that stops before that length is adapted at every round for ever. The number of samples is computed once for each length of the primary chain, and not again however the other chains grow. Rejection samples are counted over the first member of each temperature unless the ensemble is tempered.", "quantifier": "all numbers of calls, members, temperatures, periods and histories of the primary chain", "why_tests_cant": "All lengths of runs and all settings.", "anchors": ["bilby/bilby_mcmc/sampler.py:BilbyPTMCMCSampler.step_all_chains", "bilby/bilby_mcmc/sampler.py:BilbyPTMCMCSampler.__init__", "bilby/bilby_mcmc/sampler.py:BilbyPTMCMCSampler.nsamples", "bilby/bilby_mcmc/sampler.py:BilbyPTMCMCSampler.rejection_sampling_count", "bilby/bilby_mcmc/sampler.py:BilbyPTMCMCSampler.set_pt_inputs"]}
{"id": "C231", "title": "Response of a detector to the polarizations of a signal", "statement": "get_detector_response is, at each frequency of the detector's mask, the sum of the polarizations weighted with their antenna responses, times exp(-2 pi i f dt) with dt = geocent_time - start_time + delay, times the calibration factor, and 0 elsewhere. It fails exactly if there are no polarizations, their lengths are not that of the mask, or all are arrays of reals while the calibration factor is complex. For given frequencies there is no mask, and at the frequencies of the mask the same numbers result. It is linear in the polarizations. A signal later by delta, with antenna responses and delay unchanged, is turned by exp(-2 pi i f delta) and keeps its modulus; if the data start later by the same delta nothing changes. A polarization with an unknown name contributes nothing, one with the name of a detector enters that detector alone, with weight 1. Polarizations all given as real arrays lose the imaginary part of the shifted signal.", "quantifier": "all polarizations, masks, frequencies, times, antenna responses and calibrations", "why_tests_cant": "All complex arrays of any length.", "anchors": ["bilby/gw/detector/interferometer.py:Interferometer.get_detector_response", "bilby/gw/detector/interferometer.py:Interferometer.antenna_response"]}
{"id": "C232", "title": "A grid saved to a file, read again, and asked without a likelihood", "statement": "A grid with a likelihood that is saved and read again has the same parameter names, points, log prior, log likelihood and noise evidence; the likelihood, label and directory are lost, so it can be saved again only if both file name and directory are given (a name alone raises TypeError, a directory alone ValueError). Saving under a name that exists moves the file to name.old, or removes it if it is to be overwritten, and touches no other file; this happens before the values are collected, so a failed save leaves nothing under the name. A grid without likelihood can never be saved. The first question for its log likelihood raises AttributeError, and every later one returns an array of uninitialised numbers. A failure of the encoder is only logged; it leaves a broken file, or for zipped ones none. Reading a file that is not there raises IOError; a zipped one must be called .gz or read with gzip.", "quantifier": "all likelihoods, priors, points, files, names and histories of saves", "why_tests_cant": "All states of the disk and all sequences of saves.", "anchors": ["bilby/core/grid.py:Grid.__init__", "bilby/core/grid.py:Grid.save_to_file", "bilby/core/grid.py:Grid.read", "bilby/core/grid.py:Grid._get_save_data_dictionary", "bilby/core/grid.py:Grid._safe_outdir_creation", "bilby/core/grid.py:Grid.ln_likelihood", "bilby/core/grid.py:Grid._evaluate", "bilby/core/grid.py:grid_file_name", "bilby/core/utils/io.py:move_old_file"]}
{"id": "C233", "title": "Median and error bar of one parameter", "statement": "get_one_dimensional_median_and_error_bar gives the median, plus = upper quantile - median and minus = median - lower quantile, and a string of the three; minus is not negative if the lower quantile is at most 1/2, and plus if the upper is at least 1/2. The order of the samples does not matter; under x -> c x + d with c > 0 the median goes with it and both bars scale by c. It raises ValueError unless there are two quantiles in [0, 1], KeyError for an unknown parameter. The attributes lower and upper of the documentation are never set: they are descriptors of the class. Quantiles in the wrong order give bars of the wrong sign.", "quantifier": "all posteriors, parameters, quantiles and formats", "why_tests_cant": "All samples and quantiles.", "anchors": ["bilby/core/result.py:Result.get_one_dimensional_median_and_error_bar"]}
{"id": "C234", "title": "Groups of sampled parameters, and the check of a prior against the length of the data", "statement": "A group (spin, mass, sky, ...) of a binary prior is present exactly if one of its members is sampled; fixed parameters and constraints do not count, unknown groups raise ValueError. Precession implies spin, and spin, mass, phase or tides imply - and are implied by - intrinsic; sky implies extrinsic; no parameter is in both intrinsic and extrinsic. A sampled redshift is not extrinsic, and cosines of the tilts, lambda_symmetric, comoving distance and eccentricity are in no group. validate_prior returns True exactly if all draws are shorter than the data; if one is not it returns False with a warning, else raises, else returns None; a warning wins over the error. A True for some draws holds for each part of them, never the other way.", "quantifier": "all prior dictionaries, groups, draws and durations", "why_tests_cant": "All prior dictionaries and all draws.", "anchors": ["bilby/gw/prior.py:CBCPriorDict.is_nonempty_intersection", "bilby/gw/prior.py:CBCPriorDict.validate_prior", "bilby/gw/prior.py:CBCPriorDict.spin", "bilby/gw/prior.py:CBCPriorDict.precession", "bilby/gw/prior.py:CBCPriorDict.intrinsic", "bilby/gw/prior.py:CBCPriorDict.extrinsic"]}
{"id": "C235", "title": "Weights of a multi-banded reduced order basis", "statement": "For a basis in bands of duration Tb the data at k / Tb and time t are 4 / Tb times strain over spectral density at k / Tb, less what the series of the over-whitened data before its last Tb seconds contributes, times exp(2 pi i k t / Tb): for data with nothing there, and for one band of full length, exactly the data. So if the basis reproduces a waveform at the points of the bands, its values at the nodes times the weights give the inner product of the waveform with those data, for every time. At the highest frequency of the basis, which is the last point of the last band, only the real part of the data counts (data which are imaginary there have weight zero). The quadratic coefficients are 4 / Tb times the inverse spectral density less its lags of half a band and more, exact for one band of full length. A mask which reaches beyond the basis raises IndexError.", "quantifier": "all data, spectra, masks, bands, bases and times", "why_tests_cant": "All lengths of data and bands.", "anchors": ["bilby/gw/likelihood/roq.py:ROQGravitationalWaveTransient._set_weights_linear_multiband", "bilby/gw/likelihood/roq.py:ROQGravitationalWaveTransient._set_weights_quadratic_multiband"]}
{"id": "C236", "title": "Multivariate Gaussian priors and PyMC", "statement": "A MultivariateGaussian prior as bilby constructs it can never be used with PyMC: the adapter reads an attribute mvg which no class sets, and raises AttributeError. If the user adds it, the parameters of one distribution, in whatever order they come, each get their own component of one and the same mixture, made once; finite bounds are kept and infinite ones become 100 standard deviations beyond every mode; the test value is strictly inside the bounds of the distribution, but may be outside those given to PyMC, which for one finite bound may even be empty. A second distribution always raises ValueError, because its components have the names of those of the first.", "quantifier": "all distributions, bounds, modes and orders of the parameters", "why_tests_cant": "All distributions and all orders of the prior dictionary.", "anchors": ["bilby/core/sampler/pymc.py:Pymc._multivariate_normal_prior"]}
{"id": "C237", "title": "Arrival times drawn by a reduced order likelihood", "statement": "After a run with marginalised time, generate_time_sample_from_marginalized_likelihood of the ROQ likelihood draws each time sample with probability likelihood times prior over their sum - exactly the share of that time in the marginalised likelihood - whether or not distance or phase are marginalised as well; the probabilities add up to one, and a time outside the prior is never drawn. With jitter the times are those of the grid plus the jitter, and the prior is asked there. It fails exactly if the prior is zero at all of them.", "quantifier": "all inner products, norms, priors, time samples and jitters", "why_tests_cant": "All numbers of time samples and all values.", "anchors": ["bilby/gw/likelihood/roq.py:ROQGravitationalWaveTransient.generate_time_sample_from_marginalized_likelihood", "bilby/gw/likelihood/base.py:GravitationalWaveTransient.time_marginalized_likelihood"]}
{"id": "C238", "title": "Jump proposals for the sky, the polarisation and the phase", "statement": "SkyLocationWanderJump moves ra and dec alone, by standard normal numbers times the root of the temperature over 2 pi; the opposite numbers lead back. CorrelatedPolarisationPhaseJump keeps psi - phase (first draw below one half) or psi + phase, up to a whole number of pi from periodic priors, and makes the other one uniform over the whole range it has for usual priors: the signal of a binary seen face on is unchanged, and the same kind of jump leads back with a number from 0 up to 1. PolarisationPhaseJump done twice with periodic priors leads back to every point inside the ranges. It does not lead to a degenerate point as documented: the signal of a dominant quadrupole becomes its negative. Other parameters inside their ranges are kept, the log Jacobian is 0, and a missing parameter is a KeyError in all three.", "quantifier": "all samples, priors, temperatures and random numbers", "why_tests_cant": "All angles and draws; a statement about the signal at the proposed point.", "anchors": ["bilby/gw/sampler/proposal.py:SkyLocationWanderJump.__call__", "bilby/gw/sampler/proposal.py:CorrelatedPolarisationPhaseJump.__call__", "bilby/gw/sampler/proposal.py:PolarisationPhaseJump.__call__"]}
{"id": "C239", "title": "Signal-to-noise ratios of the detectors and the network", "statement": "Adding up the quantities of the detectors gives, for any number of them and in any order, the sums of <d,h>, of <h,h> and of the arrays element by element; an array that some detectors lack is the sum over the others and missing only if all lack it; arrays of different lengths above one are refused. From the columns of optimal and matched-filter SNR of the detectors the log likelihood ratio is the sum of optimal times the real part of matched filter minus half the square of optimal, and the optimal SNR of the network is the root of the sum of squares. The summed matched-filter SNR is that of the network for one detector only.", "quantifier": "all numbers of detectors, inner products and arrays", "why_tests_cant": "Any network and any mixture of missing arrays; an identity between reported columns and the likelihood.", "anchors": ["bilby/gw/likelihood/base.py:GravitationalWaveTransient._CalculatedSNRs.__iadd__", "bilby/gw/likelihood/base.py:GravitationalWaveTransient._CalculatedSNRs.snrs_as_sample", "bilby/gw/likelihood/base.py:GravitationalWaveTransient.log_likelihood_ratio"]}
{"id": "C240", "title": "The outputs a sampler announces", "statement": "With default settings, any output directory but the empty string and any label that does not begin with a slash, every file or directory a sampler keeps its state and results in is one of the files, or lies in one of the directories, get_expected_outputs returns - whether or not the directory is written with a slash at its end - for all samplers except DNest4, which announces d4nest_label and uses dn4_label and dnest4label. With the empty string as directory dynesty writes to the root directory and announces files in the current one. Different labels in one directory never share an announced file of dynesty.", "quantifier": "all samplers, output directories and labels", "why_tests_cant": "All strings; announcements and the paths in use are built in different places of the code.", "anchors": ["bilby/core/sampler/base_sampler.py:Sampler.get_expected_outputs", "bilby/core/sampler/dynesty.py:Dynesty.get_expected_outputs", "bilby/core/sampler/ptemcee.py:Ptemcee.get_expected_outputs", "bilby/core/sampler/nessai.py:Nessai.get_expected_outputs", "bilby/core/sampler/polychord.py:PyPolyChord.get_expected_outputs", "bilby/bilby_mcmc/sampler.py:Bilby_MCMC.get_expected_outputs", "bilby/core/sampler/emcee.py:Emcee.checkpoint_info", "bilby/core/sampler/dnest4.py:DNest4._set_backend"]}
{"id": "C241", "title": "Checkpoints and resuming of bilby-mcmc", "statement": "Between two timed checkpoints, between the start and the first, and between an older resume file and the first, lies more than check_point_delta_t; after each round of a run longer than that the file is not older than it. Killed between two rounds, a run leaves the old file if there was no checkpoint yet, else the sampler at the end of the round of the last checkpoint; writing it leaves the running sampler with its pool as it was. Resumed with equal parallel-tempering inputs the chains go on from there, with convergence inputs (in each chain), rejection flag and pool of the new run, but with proposal cycle, use_ratio, evidence method and prior normalisation of the old one. Different tempering inputs raise ResumeError and a damaged file raises an error even with resume=False; an empty file or another object starts afresh. A sampler that cannot be pickled never replaces what is in the file.", "quantifier": "all samplers, settings, files, times of rounds and moments of the kill", "why_tests_cant": "All sequences of rounds, and what a later run with other settings makes of the file.", "anchors": ["bilby/bilby_mcmc/sampler.py:Bilby_MCMC.setup_chain_set", "bilby/bilby_mcmc/sampler.py:Bilby_MCMC.init_ptsampler", "bilby/bilby_mcmc/sampler.py:Bilby_MCMC.check_point", "bilby/bilby_mcmc/sampler.py:Bilby_MCMC.read_current_state", "bilby/bilby_mcmc/sampler.py:Bilby_MCMC.write_current_state", "bilby/bilby_mcmc/sampler.py:BilbyPTMCMCSampler.set_convergence_inputs"]}
{"id": "C242", "title": "The estimated normalisation of a constrained prior", "statement": "Each estimate is the number of draws over the number of accepted ones, hence at least 1: of the first batch if at least min_accept of it are accepted, else of the batches after it up to the first moment with min_accept accepted, the first batch being thrown away. It ends as soon as those batches have enough accepted draws, and never if no draw satisfies the constraints. Without constraints it is 1; with sampling_chunk=1 it is 1 whatever the constraints. The factor is the mean of the estimates, moved by rounding by at most one and a half of their standard deviations and not at all if they agree; rounding can make it 0, for nine estimates 1 and one 113.", "quantifier": "all batches of draws, thresholds and estimates", "why_tests_cant": "All streams of random draws; the end of the loop and the error of the rounding.", "anchors": ["bilby/core/prior/dict.py:PriorDict._estimate_normalization", "bilby/core/prior/dict.py:PriorDict.normalize_constraint_factor"]}
