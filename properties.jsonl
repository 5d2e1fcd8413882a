{"id": "C01", "title": "Quantity set/read round trip", "statement": "Setting a Quantity to a physical value inside its limits succeeds, and reading it back (numpy(), and get_value() up to the pi/2pi unit prefactor) returns exactly that value, entry by entry.", "quantifier": "all limits min<max, all unit prefactors, all array lengths, all in-range values", "why_tests_cant": "the value is stored rescaled to [-1,1]; a test samples a few limits and units, the inverse-pair law is over a continuum", "anchors": ["c3/c3objs.py: Quantity._set_value, Quantity.numpy, Quantity.get_value"]}
{"id": "C02", "title": "Quantity refuses out-of-range values without changing", "statement": "set_value raises exactly when some entry lies outside the limits by more than the closeness tolerance; when it raises the stored value and limits are unchanged; when it succeeds the value read back is within the limits up to that tolerance.", "quantifier": "all values, limits, prefactors, array lengths", "why_tests_cant": "boundary behaviour over a continuum; a test only probes chosen points", "anchors": ["c3/c3objs.py: Quantity._set_value, QuantityOOBException"]}
{"id": "C03", "title": "Optimizer-scale setter always lands inside the limits", "statement": "set_opt_value accepts every real number, leaves the quantity inside its limits, and is the identity on [-1,1]; outside it is the triangle-wave fold (period 4, reflected at the ends).", "quantifier": "all real optimizer values, all array lengths, all quantities", "why_tests_cant": "the optimizer may propose any real number", "anchors": ["c3/c3objs.py: Quantity.set_opt_value, Quantity.get_opt_value"]}
{"id": "C04", "title": "Quantity dictionary round trip", "statement": "Rebuilding a Quantity from its asdict() reproduces value, limits, unit and symbol.", "quantifier": "all quantities with min<max whose value is in range", "why_tests_cant": "needs all limits/prefactors/shapes", "anchors": ["c3/c3objs.py: Quantity.asdict, Quantity.__init__"]}
{"id": "C05", "title": "Extending setter never fails and only widens", "statement": "set_value(..., extend_bounds=True) never raises, the new limits contain both the old limits and the new value, and the new value is read back exactly.", "quantifier": "all values of either sign, all limits, prefactors, array lengths", "why_tests_cant": "limits are recomputed from 0.9/1.1 multiples; sign cases and vectors are unbounded", "anchors": ["c3/c3objs.py: Quantity._set_value_extend"]}
{"id": "C06", "title": "Quantity arithmetic", "statement": "For a quantity whose unit carries no pi prefactor q+x, x+q, q-x, x-q, q*x, q/x return a new quantity whose value is the arithmetic result, leaving q unchanged. (For pi/2pi units the prefactor is applied twice: refuted.)", "quantifier": "all quantities, all operands", "why_tests_cant": "continuum of values and units", "anchors": ["c3/c3objs.py: Quantity.__add__, __radd__, __sub__, __rsub__, __mul__, __truediv__, add, subtract"]}
{"id": "C07", "title": "Default limits admit the value", "statement": "Constructing a Quantity without limits never raises and the value is strictly inside the default limits unless entries coincide with the limit.", "quantifier": "all arrays of reals of any sign, including zeros and mixed signs", "why_tests_cant": "sign and mixture cases are unbounded", "anchors": ["c3/c3objs.py: Quantity.__init__"]}
{"id": "C08", "title": "Parameter vector set/get round trip", "statement": "After set_parameters(values, opt_map) succeeds, get_parameters(opt_map) reads back exactly the values given, and every identifier of a group carries the value of its group.", "quantifier": "all parameter stores, all opt_maps with distinct identifiers, all in-range values", "why_tests_cant": "opt_maps and stores are arbitrary nested structures", "anchors": ["c3/parametermap.py: ParameterMap.set_parameters, get_parameters"]}
{"id": "C09", "title": "Setting parameters touches nothing else", "statement": "set_parameters and set_parameters_scaled leave every parameter not named in the opt_map exactly as it was.", "quantifier": "all stores, opt_maps, values, including failing calls", "why_tests_cant": "frame condition over all other parameters", "anchors": ["c3/parametermap.py: set_parameters, _set_parameters_scaled_ctrls"]}
{"id": "C10", "title": "Failing update is a prefix update", "statement": "If set_parameters raises on an out-of-bounds value, exactly the identifiers that precede the failing one in opt_map order carry the new values, all later ones are unchanged, and the model is not updated (hence the update is not atomic: refuted).", "quantifier": "all stores, opt_maps and value lists", "why_tests_cant": "depends on the failure position in arbitrary lists", "anchors": ["c3/parametermap.py: set_parameters, ParameterMapOOBUpdateException"]}
{"id": "C11", "title": "Optimizer vector round trip", "statement": "get_parameters_scaled after set_parameters_scaled(x) returns x for every x with entries in [-1,1] (the folded x otherwise), and writing back what was read changes nothing; the vector length is the sum of the lengths of the group leaders.", "quantifier": "all stores with scalar/array parameters, all opt_maps with distinct identifiers, all vectors", "why_tests_cant": "slices with varying lengths; arbitrary maps", "anchors": ["c3/parametermap.py: get_parameters_scaled, _set_parameters_scaled_ctrls"]}
{"id": "C12", "title": "Slot-to-name lookup", "statement": "get_key_from_scaled_index(i) names the group leader whose slice of the optimizer vector contains position i, and the empty string exactly when i is past the end.", "quantifier": "all opt_maps, lengths and indices", "why_tests_cant": "cumulative index arithmetic over arbitrary lengths", "anchors": ["c3/parametermap.py: get_key_from_scaled_index"]}
{"id": "C13", "title": "Model refresh when and only when needed", "statement": "A successful set_parameters refreshes the model exactly once if some identifier in the map is a model parameter and not at all otherwise.", "quantifier": "all stores and opt_maps", "why_tests_cant": "depends on arbitrary maps", "anchors": ["c3/parametermap.py: set_parameters, set_opt_map, set_update_model"]}
{"id": "C14", "title": "Optimised / fixed parameters partition", "statement": "get_not_opt_params returns exactly the parameters that are not in the opt_map, with their values, in store order, and raises exactly if an identifier is unknown or repeated.", "quantifier": "all stores and opt_maps", "why_tests_cant": "arbitrary maps", "anchors": ["c3/parametermap.py: get_not_opt_params"]}
{"id": "C15", "title": "Saved point reloads", "statement": "load_values of a file written by store_values restores the optimised parameters to the stored values, whatever happened to the parameters in between.", "quantifier": "all stores, opt_maps, intermediate histories of updates", "why_tests_cant": "arbitrary histories between save and load", "anchors": ["c3/parametermap.py: store_values, load_values"]}
{"id": "C16", "title": "opt_map validation", "statement": "set_opt_map raises if some identifier is undefined and then leaves the map and the map in force unchanged; otherwise installs it and selects the model-updating setter iff it names a model parameter. (Limit equality inside groups is checked on the old map: refuted.)", "quantifier": "all stores, old and new maps", "why_tests_cant": "arbitrary maps and histories", "anchors": ["c3/parametermap.py: set_opt_map, check_limits"]}
{"id": "C17", "title": "Signal chain ordering is topological", "statement": "For an accepted chain the processing order contains every device exactly once and every device after all of its sources.", "quantifier": "all device graphs", "why_tests_cant": "all graphs", "anchors": ["c3/generator/generator.py: Generator.__topological_ordering"]}
{"id": "C18", "title": "Cyclic chains are rejected, acyclic accepted", "statement": "set_chains raises the cycle error for each chain with a cyclic dependency, and the ordering succeeds for every acyclic chain in which sources are listed once and are devices of the chain.", "quantifier": "all device graphs", "why_tests_cant": "all graphs", "anchors": ["c3/generator/generator.py: __topological_ordering, __check_signal_chains"]}
{"id": "C19", "title": "Signal generation equals data-flow semantics", "statement": "generate_signals processes every device once, with the outputs of precisely its listed sources in order, and when every device feeds at most one other the returned channel signal is that of the unique final device, independent of dictionary order.", "quantifier": "all accepted chains, all device behaviours (arbitrary functions of their inputs)", "why_tests_cant": "all graphs and device functions", "anchors": ["c3/generator/generator.py: generate_signals"]}
{"id": "C20", "title": "Accepted chains consume exactly what they produce", "statement": "In an accepted chain every device receives exactly the number of inputs it declares and the total of outputs minus inputs is one.", "quantifier": "all chains and device tables", "why_tests_cant": "all graphs", "anchors": ["c3/generator/generator.py: __check_signal_chains"]}
{"id": "C21", "title": "Folded product equals ordered product", "statement": "Multiplying n slice propagators with the pre-computed folding stack for n gives U_n ... U_2 U_1.", "quantifier": "all n>=1, all matrices (any associative product)", "why_tests_cant": "n is arbitrary; the stack depends on the binary structure of n", "anchors": ["c3/experiment.py: Experiment._compute_folding_stack", "c3/utils/tf_utils.py: tf_matmul_n, _tf_matmul_n_even, _tf_matmul_n_odd"]}
{"id": "C22", "title": "Left and right products", "statement": "tf_matmul_left gives U_n...U_1 and tf_matmul_right U_1...U_n, they agree with the folded product, and concatenating slice lists multiplies the results in the corresponding order.", "quantifier": "all lists", "why_tests_cant": "all lengths", "anchors": ["c3/utils/tf_utils.py: tf_matmul_left, tf_matmul_right"]}
{"id": "C23", "title": "Batching does not change propagation", "statement": "tf_batch_propagate returns the same slice propagators for every batch size >= 1, covering every time slice once and in order.", "quantifier": "all signal lengths, batch sizes", "why_tests_cant": "all length/batch combinations including non divisible ones", "anchors": ["c3/libraries/propagation.py: tf_batch_propagate"]}
{"id": "C24", "title": "Sequence evaluation composes in time order", "statement": "evaluate_sequences returns for every sequence the product of its gates, later gates to the left, the identity for an empty sequence, so that the propagator of s1++s2 is P(s2)P(s1); unknown gates raise.", "quantifier": "all propagator tables and sequences", "why_tests_cant": "arbitrary sequences", "anchors": ["c3/libraries/propagation.py: evaluate_sequences"]}
{"id": "C25", "title": "Truncated matrix exponential", "statement": "tf_expm(A, terms) equals the sum of the first `terms` Taylor terms A^k/k! for terms >= 2 (and always at least I+A), misses exp(A) by at most a^r/r! exp(a) in row sums (a the row sums of |A|, r the number of terms) and converges to it. tf_expm_dynamic stops at the first term with entries below the accuracy and misses exp(A) by at most n acc (exp(a)-1). (The accuracy itself does not bound the error, and one term is never returned: refuted.)", "quantifier": "all square matrices, all term counts, all accuracies", "why_tests_cant": "all matrices and counts", "anchors": ["c3/libraries/propagation.py: tf_expm"]}
{"id": "C26", "title": "State evolution along a sequence", "statement": "The state used for populations after a gate sequence equals the product of the gates, later to the left, applied to the initial state; splitting a sequence and continuing from the intermediate state gives the same result.", "quantifier": "all sequences, propagators, initial states", "why_tests_cant": "arbitrary sequences", "anchors": ["c3/experiment.py: evaluate_legacy, evaluate_qasm"]}
{"id": "C27", "title": "State index and labels are mutually inverse", "statement": "get_state_index of a tuple of levels is the position of its label, labels enumerate every level tuple once, in Kronecker order (last subsystem fastest).", "quantifier": "all lists of subsystem dimensions, all states", "why_tests_cant": "all dimensions", "anchors": ["c3/model.py: __create_labels, get_state_index, get_state_indeces"]}
{"id": "C28", "title": "Single-subsystem operators act on their subsystem only", "statement": "hilbert_space_kron(op, k, dims) has matrix element op[i_k,j_k] between labels that agree on all other subsystems and zero otherwise.", "quantifier": "all dims, k, op", "why_tests_cant": "all dims", "anchors": ["c3/utils/qt_utils.py: hilbert_space_kron, np_kron_n", "c3/model.py: __create_annihilators"]}
{"id": "C29", "title": "Ladder operators", "statement": "The annihilation operator of a d-level subsystem lowers by one with weight sqrt(n), its number operator is diagonal with the level of the label, operators of different subsystems commute, and [a,a+]=1 except on the top level.", "quantifier": "all dims", "why_tests_cant": "all dims", "anchors": ["c3/model.py: __create_annihilators", "c3/libraries/hamiltonians.py: resonator"]}
{"id": "C30", "title": "Gate embedding", "statement": "insert_mat_kron(dims, targets, M) has matrix element M[targets(i),targets(j)] between states that agree outside the targets and 0 otherwise; embedding preserves products, adjoints and identity.", "quantifier": "all dims, target lists, matrices", "why_tests_cant": "all dims and target orders", "anchors": ["c3/utils/qt_utils.py: insert_mat_kron, kron_ids"]}
{"id": "C31", "title": "Excitation cut-off", "statement": "With max_excitations set, cutting after blowing up is the identity, and cut keeps exactly the matrix elements between labels with total excitation at most the limit, in label order.", "quantifier": "all dims, limits, operators", "why_tests_cant": "all dims", "anchors": ["c3/model.py: set_max_excitations, cut_excitations, blowup_excitations"]}
{"id": "C32", "title": "Computational projection", "statement": "Projecting onto the computational subspace keeps exactly the matrix elements between states whose subsystems are in levels 0,1 (in qubit order), all subsystems outside `index` in the ground state.", "quantifier": "all dims, index lists, operators", "why_tests_cant": "all dims", "anchors": ["c3/utils/tf_utils.py: tf_project_to_comp", "c3/utils/qt_utils.py: projector"]}
{"id": "C33", "title": "Frame rotation", "statement": "The frame rotation is diagonal and unitary, multiplies a basis state with level n_k of line k by exp(i sum_k n_k (w_k t + fc_k)), and rotations compose by adding times and frame changes.", "quantifier": "all dims, times, frequencies, frame changes", "why_tests_cant": "continuum parameters, all dims", "anchors": ["c3/model.py: get_Frame_Rotation"]}
{"id": "C34", "title": "Randomised benchmarking sequences invert", "statement": "Every RB sequence returned by single_length_RB, for every length and every random choice of Cliffords, composes to the identity up to a global phase, consists of RB_length Cliffords of which the last is the computed inverse.", "quantifier": "all lengths, all random choices", "why_tests_cant": "exponentially many sequences", "anchors": ["c3/utils/qt_utils.py: single_length_RB, inverseC, cliffords_decomp", "c3/libraries/constants.py: CLIFFORDS"]}
{"id": "C35", "title": "The 24 Cliffords form a group up to phase", "statement": "Each tabulated gate decomposition multiplies (in time order) to the tabulated Clifford, the 24 Cliffords are pairwise different up to phase, are closed under products and inverses up to phase.", "quantifier": "all elements and hence all products of any length", "why_tests_cant": "products of any length", "anchors": ["c3/utils/qt_utils.py: cliffords_decomp, inverseC", "c3/libraries/constants.py: CLIFFORDS, GATES"]}
{"id": "C36", "title": "Ideal gates are unitary", "statement": "Every tabulated gate is unitary, hence every ideal gate built from a name like rx90p:id is unitary of the product dimension.", "quantifier": "all colon-joined names of known gates", "why_tests_cant": "names of any length", "anchors": ["c3/signal/gates.py: Instruction.set_ideal", "c3/libraries/constants.py: GATES"]}
{"id": "C37", "title": "Lindblad step generates trace and Hermiticity preserving flow", "statement": "The Lindblad right-hand side has zero trace, and is Hermitian for Hermitian state and Hamiltonian.", "quantifier": "all dimensions, states, Hamiltonians, collapse-operator lists", "why_tests_cant": "all matrices", "anchors": ["c3/libraries/propagation.py: lindblad, von_neumann"]}
{"id": "C38", "title": "ODE solvers preserve trace and Hermiticity", "statement": "All four solvers (rk4, rk38, rk5, tsit5) keep trace and Hermiticity of the density matrix for the lindblad and von_neumann steps over any number of steps.", "quantifier": "all dims, Hamiltonian samples, step counts", "why_tests_cant": "any number of steps", "anchors": ["c3/libraries/propagation.py: ode_solver, rk4, rk38, rk5, tsit5"]}
{"id": "C39", "title": "Superoperator propagation agrees with the Lindblad step", "statement": "The generator assembled for piecewise-constant open-system propagation maps the row-stacked density matrix to the row-stacked Lindblad right-hand side.", "quantifier": "all dims, Hamiltonians, collapse operators, states", "why_tests_cant": "all matrices", "anchors": ["c3/libraries/propagation.py: tf_dU_of_t_lind, tf_propagation_lind", "c3/utils/tf_utils.py: tf_spre, tf_spost, tf_super"]}
{"id": "C40", "title": "Superoperators compose", "statement": "tf_super(U) maps the row-stacked rho to row-stacked U rho U+, tf_super(UV)=tf_super(U)tf_super(V), tf_super(1)=1.", "quantifier": "all dims and matrices", "why_tests_cant": "all matrices", "anchors": ["c3/utils/tf_utils.py: tf_super, tf_spre, tf_spost"]}
{"id": "C41", "title": "Dephasing channel", "statement": "The per-line dephasing channel preserves trace and all populations, is a convex mixture of unitary conjugations for rates in [0,1], is the identity at strength 0, and raises otherwise.", "quantifier": "all dims, strengths, amplitudes, times", "why_tests_cant": "continuum", "anchors": ["c3/model.py: get_dephasing_channel"]}
{"id": "C42", "title": "Runge-Kutta steps are Taylor steps for constant generators", "statement": "For a time-independent linear right-hand side one rk4 or rk38 step is exactly the Taylor polynomial of order four. One rk5 step is a polynomial of degree seven that agrees with the exponential to fourth order; one tsit5 step likewise up to coefficients 1e-14. (Neither is of fifth order, and the partial propagators of rk4_unitary are transposed: refuted.)", "quantifier": "all linear right-hand sides, dims, states", "why_tests_cant": "all matrices", "anchors": ["c3/libraries/propagation.py: rk4, rk38, rk5, tsit5"]}
{"id": "C43", "title": "Solver sampling stays aligned", "statement": "Each ODE step i reads the Hamiltonian samples at times t_i + c_k dt required by its stages, and never beyond the end of the interpolated array, for every solver and number of slices.", "quantifier": "all slice counts, all solvers", "why_tests_cant": "all lengths", "anchors": ["c3/libraries/propagation.py: ode_solver, ode_solver_final_state", "c3/utils/tf_utils.py: interpolate_signal"]}
{"id": "C44", "title": "Hamiltonians are Hermitian", "statement": "All library Hamiltonians and drives built from the ladder operators, and any real combination or sum over slices of them, are Hermitian.", "quantifier": "all dims, all real coefficients and control fields", "why_tests_cant": "all dims", "anchors": ["c3/libraries/hamiltonians.py: resonator, duffing, third_order, int_XX, int_YY, x_drive, y_drive, z_drive", "c3/model.py: get_Hamiltonian, calculate_sum_Hs"]}
{"id": "C45", "title": "Unitary infidelity", "statement": "unitary_infid lies in [0,1] for unitary arguments, is 0 exactly if they agree up to a global phase, is symmetric and invariant under global phases.", "quantifier": "all dims and unitaries", "why_tests_cant": "all matrices", "anchors": ["c3/libraries/fidelities.py: unitary_infid", "c3/utils/tf_utils.py: tf_unitary_overlap"]}
{"id": "C46", "title": "Average infidelity", "statement": "average_infid of two unitaries equals 1-(|tr U+V|^2+d)/(d^2+d), lies in [0, d/(d+1)], zero exactly when equal up to phase.", "quantifier": "all dims and unitaries", "why_tests_cant": "all matrices", "anchors": ["c3/libraries/fidelities.py: average_infid", "c3/utils/tf_utils.py: tf_average_fidelity, tf_super_to_fid, tf_choi_to_chi"]}
{"id": "C47", "title": "State transfer infidelity", "statement": "state_transfer_infid lies in [0,1] for unitary gates and normalised initial state and is zero iff the transferred states agree up to phase.", "quantifier": "all dims, unitaries, states", "why_tests_cant": "all matrices", "anchors": ["c3/libraries/fidelities.py: state_transfer_infid"]}
{"id": "C48", "title": "Set infidelities are averages", "statement": "The *_set figures are the arithmetic mean over the gates, lie between the smallest and largest single gate infidelity, vanish iff each vanishes (for nonnegative ones), and do not depend on the dictionary order.", "quantifier": "all finite gate sets", "why_tests_cant": "arbitrary sets", "anchors": ["c3/libraries/fidelities.py: unitary_infid_set, state_transfer_infid_set, average_infid_set"]}
{"id": "C49", "title": "Populations are a probability distribution", "statement": "Populations of a normalised state vector are nonnegative and sum to one, unitary gates keep this, and for a vectorised density matrix they are its diagonal.", "quantifier": "all dims, states", "why_tests_cant": "all dims", "anchors": ["c3/libraries/fidelities.py: populations", "c3/experiment.py: populations"]}
{"id": "C50", "title": "Confusion matrix conserves probability", "statement": "ConfusionMatrix.confuse conserves the total population and nonnegativity for any assignment errors in [0,1], and is the identity for perfect readout.", "quantifier": "all numbers of subsystems, levels, error rates, populations", "why_tests_cant": "any number of subsystems", "anchors": ["c3/libraries/tasks.py: ConfusionMatrix.confuse"]}
{"id": "C51", "title": "Thermal initial state", "statement": "The thermal initial state has nonnegative populations summing to one, ratios given by the Boltzmann factor, and is diagonal in the drift basis; the ground state for zero temperature.", "quantifier": "all level energies, temperatures > 0", "why_tests_cant": "continuum", "anchors": ["c3/libraries/tasks.py: InitialiseGround.initialise"]}
{"id": "C52", "title": "Label processing sums populations", "statement": "process with labels returns the sum of the populations of exactly the labelled states, rescaled affinely, so full label sets give total one.", "quantifier": "all label lists, populations", "why_tests_cant": "arbitrary lists", "anchors": ["c3/experiment.py: process", "c3/libraries/tasks.py: MeasurementRescale.rescale"]}
{"id": "C53", "title": "Sampling returns valid distinct indices", "statement": "Every sampling method returns pairwise different valid indices, at most batch_size many, from_start/from_end/all being exactly the prefix/suffix/all (batch_size 0 with from_end returns everything: refuted).", "quantifier": "all data sizes and batch sizes", "why_tests_cant": "all sizes", "anchors": ["c3/libraries/sampling.py: all, from_start, from_end, even, random_sample, high_std, even_fid"]}
{"id": "C54", "title": "Learning and validation sets partition the data", "statement": "The validation selection is exactly the complement of the learning selection for any deterministic sampling method.", "quantifier": "all data sizes, sampling methods", "why_tests_cant": "all sizes", "anchors": ["c3/optimizers/modellearning.py: ModelLearning.select_from_data"]}
{"id": "C55", "title": "Estimators", "statement": "Distance estimators are nonnegative, vanish exactly on perfect agreement, mean <= rms; the normalised Gaussian likelihood is minimal at agreement; combined goal is the weighted mean and its gradient is the chain rule.", "quantifier": "all data lengths and values", "why_tests_cant": "continuum, all lengths", "anchors": ["c3/libraries/estimators.py: mean_dist, rms_dist, neg_loglkh_gauss_norm, g_LL_prime, g_LL_prime_combined, dv_g_LL_prime"]}
{"id": "C56", "title": "Best point tracking", "statement": "After any history of goal evaluations the best-point file holds the parameters of the first evaluation with the smallest goal below the sentinel, and after a run whose vectors stay within [-1,1] the parameters are those; without any goal below the sentinel the final load fails. (Vectors outside are logged unfolded, so that loading the best point may fail: refuted.)", "quantifier": "all evaluation histories (any algorithm)", "why_tests_cant": "algorithms are arbitrary clients", "anchors": ["c3/optimizers/optimizer.py: Optimizer.log_parameters, fct_to_min, fct_to_min_autograd", "c3/optimizers/optimalcontrol.py: optimize_controls"]}
{"id": "C57", "title": "Gradient lookup returns the matching gradient", "statement": "lookup_gradient(x) after fct_to_min_autograd(x) returns the gradient computed at x with non-finite entries replaced, provided no later evaluation had the same printed form; a second lookup raises.", "quantifier": "all histories of evaluations and lookups", "why_tests_cant": "arbitrary histories", "anchors": ["c3/optimizers/optimizer.py: lookup_gradient, fct_to_min_autograd"]}
{"id": "C58", "title": "Grid and sweep coverage", "statement": "grid2D evaluates each grid point exactly once, in row-major order; sweep evaluates init point, probe points, then the linear grid, with end points included.", "quantifier": "all point counts, bounds, probe lists", "why_tests_cant": "all sizes", "anchors": ["c3/libraries/algorithms.py: grid2D, sweep"]}
{"id": "C59", "title": "CMA custom stopping rules", "statement": "The shrink criterion fires exactly if the last stop_at_convergence step widths are strictly decreasing; (the sigma criterion truncates its threshold to an integer: refuted).", "quantifier": "all step-width histories", "why_tests_cant": "arbitrary histories", "anchors": ["c3/libraries/algorithms.py: cmaes"]}
{"id": "C60", "title": "Envelopes are confined to their window", "statement": "The masked envelope has one value per time point; from the start of its window up to 0.998 of the window length (the smaller of t_final and the slot) the shape is reproduced up to a relative error 2 exp(-1000), and before the window or after 0.999 of its length the value is at most exp(-1000) of the shape, which is zero in double precision (so the last thousandth of the window is cut: refuted as literal claim).", "quantifier": "all time points, lengths", "why_tests_cant": "continuum", "anchors": ["c3/signal/pulse.py: Envelope.compute_mask"]}
{"id": "C61", "title": "Component timing", "statement": "Component start and end times returned by get_timings lie in order, satisfy trigger chains, and the full gate length covers every component.", "quantifier": "all acyclic component configurations", "why_tests_cant": "arbitrary nesting of triggers", "anchors": ["c3/signal/gates.py: Instruction.get_timings, get_full_gate_length"]}
{"id": "C62", "title": "Automatic gate length", "statement": "If every trigger has a length of its own, auto_adjust_t_end returns, leaves a gate length (end of the last component times 1+buffer) for which all components fit, and changes nothing else (it does not return if a pulse is triggered by a carrier: refuted).", "quantifier": "all instruction configurations", "why_tests_cant": "arbitrary nesting", "anchors": ["c3/signal/gates.py: auto_adjust_t_end"]}
{"id": "C63", "title": "Symmetric bounded pulse shapes", "statement": "cosine, gaussian, trapezoid, flattop shapes are symmetric in time about the centre, bounded by their amplitude and vanish where documented.", "quantifier": "all times and parameters", "why_tests_cant": "continuum", "anchors": ["c3/libraries/envelopes.py: cosine, gaussian_nonorm, trapezoid, flattop, cosine_flattop"]}
{"id": "C64", "title": "DRAG derivative", "statement": "drag_der is the time derivative of drag_sigma; (gaussian_der_nonorm has the opposite sign of the derivative: refuted).", "quantifier": "all times and parameters", "why_tests_cant": "continuum", "anchors": ["c3/libraries/envelopes.py: drag_sigma, drag_der, gaussian_der_nonorm"]}
{"id": "C65", "title": "Time grids", "statement": "create_ts produces slice_num equidistant points; for an interval of a whole number of slices these are exactly the slice centres (or edges). In general the first and last points are half a slice from the ends and the spacing is at least, and less than (1+1/(n-1)) times, the slice length. (That the spacing always is the slice length 1/resolution, which the solvers use, is refuted.)", "quantifier": "all start/end/resolution with at least one slice", "why_tests_cant": "continuum", "anchors": ["c3/generator/devices.py: Device.create_ts, calc_slice_num"]}
{"id": "C66", "title": "IQ mixing", "statement": "The mixer output of envelope (I,Q) and local oscillator is amp*cos(w t + phase) form; it is linear in the envelopes and bounded by the sum of their magnitudes. (Of several carriers only the last counts; without a carrier the previous signal is reused: refuted.)", "quantifier": "all signals, phases, frequencies", "why_tests_cant": "continuum", "anchors": ["c3/generator/devices.py: LO.process, Mixer.process, AWG.create_IQ"]}
{"id": "C67", "title": "Convolution", "statement": "tf_convolve is the linear convolution truncated to the signal length: bilinear, causal, and shift covariant; unit impulse is neutral.", "quantifier": "all signal and response lengths", "why_tests_cant": "all lengths", "anchors": ["c3/utils/tf_utils.py: tf_convolve"]}
{"id": "C68", "title": "Step response filter", "statement": "A StepFuncFilter driven by a constant signal returns the constant times its step response, it is linear and causal.", "quantifier": "all lengths and step responses", "why_tests_cant": "all lengths", "anchors": ["c3/generator/devices.py: StepFuncFilter.process"]}
{"id": "C69", "title": "Flux tuning references", "statement": "The flux tuning factor is between the square root of the asymmetry and 1, even and periodic in the flux quantum; FluxTuning returns the frequency shift relative to the bias point, which is zero for zero signal and bounded. (CouplingTuning output sign and FluxTuningLinear parameter name deviate: refuted.)", "quantifier": "all parameters", "why_tests_cant": "continuum", "anchors": ["c3/generator/devices.py: FluxTuning.process, FluxTuning.get_factor, CouplingTuning.process"]}
{"id": "C70", "title": "Net-zero pulses", "statement": "Net-zero envelopes have zero sum and the length of the time grid.", "quantifier": "all lengths and shapes", "why_tests_cant": "all lengths", "anchors": ["c3/signal/pulse.py: EnvelopeNetZero.get_shape_values"]}
{"id": "C71", "title": "Instruction dictionary round trip", "statement": "Writing an instruction (or a whole parameter map) to JSON and reading it back reproduces its name, length, targets, ideal gate, parameters, channels, and each component with its class, shape, parameters and options; tuples come back as lists. Reading a second time changes nothing. (from_dict(asdict()) without JSON raises; description, comment and use_t_before are lost; a start time other than zero is lost: refuted.)", "quantifier": "all instructions built by __init__ and add_component", "why_tests_cant": "arbitrary nesting", "anchors": ["c3/signal/gates.py: Instruction.__init__, add_component, asdict, from_dict", "c3/signal/pulse.py: Envelope.asdict, Carrier", "c3/parametermap.py: asdict, fromdict"]}
{"id": "C72", "title": "Generator and model dictionary round trips", "statement": "Writing a generator to JSON and reading it into a new one reproduces every device (class, name, inputs, outputs, resolution, parameters), the chains and their orderings, for all device classes but those below. Writing a model and reading it into a new one gives the same model: subsystems with their drive lines, couplings, tasks and the excitation cut-off. (Crosstalk, Pink_Noise, LONoise, FluxTuningLinear and SNAIL do not come back; keywords that are no quantities cannot be written; two_inputs, the generator resolution and the dressed and Lindbladian flags are lost; Model(subsystems) without couplings raises: refuted.)", "quantifier": "all devices, chains, subsystems, lines, tasks with quantity parameters", "why_tests_cant": "arbitrary maps", "anchors": ["c3/generator/generator.py: asdict, fromdict", "c3/model.py: asdict, fromdict"]}
{"id": "C73", "title": "flatten", "statement": "flatten returns the leaves of an arbitrarily nested list in order and is idempotent.", "quantifier": "all nested lists", "why_tests_cant": "any depth", "anchors": ["c3/utils/utils.py: flatten"]}
{"id": "C74", "title": "Qiskit counts labelling", "statement": "With equal dimensions each hexadecimal count label is the index of its state and every state is labelled exactly once; the shot total deviates from shots by at most half the number of states. (The total need not equal shots, labels of multilevel systems are not bit strings, unequal dimensions drop states and flip_labels merges labels: refuted.)", "quantifier": "all qubit numbers, level numbers, populations", "why_tests_cant": "all sizes", "anchors": ["c3/qiskit/c3_backend.py: get_labels, generate_shot_readout, run_experiment", "c3/qiskit/c3_backend_utils.py: flip_labels"]}
{"id": "C75", "title": "Circuit sanitising", "statement": "sanitize_instructions drops exactly measure and barrier and keeps the order of all others; measurement positions are exactly those of measure. Barriers never change a result, an unknown gate raises the backend error and a trailing param_update acts before the circuit. (A circuit of measurements only fails with IndexError: refuted.)", "quantifier": "all circuits", "why_tests_cant": "arbitrary circuits", "anchors": ["c3/qiskit/c3_backend.py: sanitize_instructions, locate_measurements"]}
{"id": "C76", "title": "Potential derivatives", "statement": "The analytic derivative orders of the flux-qubit potentials are the successive derivatives of the potential.", "quantifier": "all phases and parameters", "why_tests_cant": "continuum", "anchors": ["c3/libraries/chip.py: CShuntFluxQubit.get_potential_function, Fluxonium.get_potential_function"]}
{"id": "C77", "title": "Engineering notation", "statement": "eng_num(v) returns mantissa and prefix with mantissa*10^prefix = v and 1 <= |mantissa| < 1000 for 1e-21 <= |v| < 1e24, and the exact product for all other positive v. (Negative v outside the range lose their sign: refuted.)", "quantifier": "all nonzero reals in range", "why_tests_cant": "continuum", "anchors": ["c3/utils/utils.py: eng_num"]}
{"id": "C78", "title": "Eigenvector reordering", "statement": "When every eigenvector has a dominant component the reordering is a permutation, the transformation stays unitary and the energies are permuted accordingly.", "quantifier": "all dims, all unitary eigenvector matrices", "why_tests_cant": "all dims", "anchors": ["c3/model.py: reorder_frame, update_drift_eigen"]}
{"id": "C79", "title": "Config value encoding", "statement": "hjson_decode(hjson_encode z) reproduces complex numbers, arrays and quantities at any nesting depth of containers.", "quantifier": "all nested values", "why_tests_cant": "any depth", "anchors": ["c3/c3objs.py: hjson_encode, hjson_decode"]}
{"id": "C80", "title": "Gate selection for sequences", "statement": "compute_propagators returns exactly the selected gates, each computed from its own instruction; after set_opt_gates_seq these are the gates occurring in the sequences, every sequence can be evaluated and the result does not depend on the selection order; a failing call leaves the stored propagators as they were.", "quantifier": "all sequences", "why_tests_cant": "arbitrary sequences", "anchors": ["c3/experiment.py: set_opt_gates_seq, set_opt_gates, compute_propagators"]}
{"id": "C81", "title": "Dressed frame", "statement": "Changing to the dressed basis is a unitary similarity: Hermiticity, trace and products of operators are preserved and the drift becomes diagonal.", "quantifier": "all dims, Hermitian drifts, unitary transforms", "why_tests_cant": "all dims", "anchors": ["c3/model.py: update_dressed", "c3/libraries/chip.py: PhysicalComponent.get_transformed_hamiltonians"]}
{"id": "C82", "title": "Piecewise constant propagation is unitary", "statement": "For Hermitian Hamiltonians and real signals every partial propagator and every gate propagator of an experiment is unitary, for any number of slices, batch size and frame rotation, and is the time ordered product of exp(-i dt H(t)); for open systems it keeps trace and Hermiticity of density matrices. With an excitation cut-off this holds on the kept states only.", "quantifier": "all slice counts, unitary slices", "why_tests_cant": "any length", "anchors": ["c3/libraries/propagation.py: pwc", "c3/experiment.py: compute_propagators"]}
{"id": "C83", "title": "Robust optimisation averages and restores", "statement": "goal_run_with_grad of the robust optimiser evaluates every noise instance on the store with the optimiser vector and that one noise value, returns the means of goal and gradient, and restores every noise parameter to its original value, provided noise parameters are not optimised and the members of a noise group agree. (A raising instance is not undone, an optimised noise parameter sees no noise, and groups are overwritten with the value of their first member: refuted.)", "quantifier": "all noise maps and parameter stores", "why_tests_cant": "arbitrary maps", "anchors": ["c3/optimizers/optimalcontrol_robust.py: goal_run_with_grad, noise_instance"]}
{"id": "C84", "title": "Rotations", "statement": "rotation(phi, n) is unitary for unit n, composes additively for a fixed axis, and is -1 at 2 pi.", "quantifier": "all angles and unit axes", "why_tests_cant": "continuum", "anchors": ["c3/utils/qt_utils.py: rotation"]}
{"id": "C85", "title": "Experiment sequences for T1 and Ramsey", "statement": "T1 and Ramsey sequences contain exactly `length` waiting gates between their pulses on the given target; the echo sequence splits the waiting symmetrically (odd lengths lose one wait: refuted).", "quantifier": "all lengths and targets", "why_tests_cant": "all lengths", "anchors": ["c3/utils/qt_utils.py: T1_sequence, ramsey_sequence, ramsey_echo_sequence"]}
{"id": "C86", "title": "Transmon tuning curve", "statement": "The transmon flux factor is positive, 1 at zero flux, at least the asymmetry bound, symmetric and periodic; the frequency is therefore between its extreme values.", "quantifier": "all flux values and junction asymmetries", "why_tests_cant": "continuum", "anchors": ["c3/libraries/chip.py: Transmon.get_factor, get_freq"]}
{"id": "C87", "title": "Sample and hold", "statement": "With a simulation resolution k times the AWG resolution the DigitalToAnalog device holds every AWG sample for k simulation slices, which lie inside the AWG slice of that sample; for any two resolutions every output is an input sample and the order is kept.", "quantifier": "all resolutions, factors, lengths and signals", "why_tests_cant": "all lengths", "anchors": ["c3/generator/devices.py: DigitalToAnalog.process"]}
{"id": "C88", "title": "Crosstalk", "statement": "Every crossed channel carries at every time the matrix-weighted sum of the crossed channels; other channels are untouched and the identity matrix is neutral. (A crossed channel that the instruction does not drive raises KeyError: refuted.)", "quantifier": "all matrices, channels and signals", "why_tests_cant": "arbitrary maps", "anchors": ["c3/generator/devices.py: Crosstalk.process"]}
{"id": "C89", "title": "Bandwidth limitation", "statement": "The rise function of Response and ResponseFFT has positive weights with sum 1, so the output never exceeds the largest input magnitude and follows a constant input exactly after the rise time. (Response returns its own time grid, which may not match the signal: refuted.)", "quantifier": "all rise times of at least one slice, resolutions above 1 Hz, signals", "why_tests_cant": "continuum", "anchors": ["c3/generator/devices.py: Response.process, ResponseFFT.process"]}
{"id": "C90", "title": "Noise and offset devices", "statement": "Additive noise devices return input plus the recorded noise and are transparent below the amplitude threshold. (DC_Offset also shifts the time points: refuted.)", "quantifier": "all signals and noises", "why_tests_cant": "all lengths", "anchors": ["c3/generator/devices.py: Additive_Noise.process, DC_Noise.get_noise, DC_Offset.process"]}
{"id": "C91", "title": "Sequences in QASM format and virtual Z gates", "statement": "evaluate_qasm applies the operations of each sequence in order to the initial state and returns its populations. A virtual Z gate is the diagonal unitary exp(-i angle/2 Z) of its target on all qubit states, angles add up and populations never change. (The phase vanishes when any other subsystem leaves its qubit levels, and open systems cannot use it: refuted.)", "quantifier": "all sequences, dimensions of at least 2, targets, angles, states", "why_tests_cant": "unbounded sequences, continuum of angles", "anchors": ["c3/experiment.py: evaluate_qasm, lookup_gate, get_VZ", "c3/utils/qt_utils.py: perfect_single_q_parametric_gate"]}
{"id": "C92", "title": "Instruction keys", "statement": "Two instructions whose names are free of '[' have the same key only if their names and targets agree. (With '[' in a name keys collide: refuted.)", "quantifier": "all names and target lists", "why_tests_cant": "all strings", "anchors": ["c3/signal/gates.py: Instruction.get_key", "c3/experiment.py: lookup_gate"]}
{"id": "C93", "title": "Hamiltonians of chip components", "statement": "The Hamiltonian of every polynomial chip component is Hermitian; a Qubit with two levels has level spacing freq, and levels n*freq + n(n-1)/2*anhar otherwise; a transformation is a similarity. (The truncated-cosine flux qubit Hamiltonian is not Hermitian: refuted.)", "quantifier": "all dims, levels, frequencies, anharmonicities", "why_tests_cant": "continuum, all dims", "anchors": ["c3/libraries/chip.py: Qubit.get_Hamiltonian, Transmon.get_Hamiltonian, CShuntFluxQubitCos.get_Hamiltonian"]}
{"id": "C94", "title": "Decay and dephasing rates", "statement": "With only t1 the mean excitation decays at 1/t1, with only t2star coherences between levels decay at (difference)^2/t2star. (Transmon relaxes at another rate, thermal excitation does not reach the Boltzmann distribution, and relaxation plus dephasing is not the sum of the two processes: refuted.)", "quantifier": "all dims, levels, rates, states", "why_tests_cant": "continuum, all dims", "anchors": ["c3/libraries/chip.py: Qubit.get_Lindbladian, Transmon.get_Lindbladian", "c3/libraries/propagation.py: lindblad"]}
{"id": "C95", "title": "Hamiltonian of a driven model", "statement": "get_Hamiltonian(signal) is at every time the sum over all components of their Hamiltonian or of their response to the sample; for drive lines it is drift + sum c_k(t) H_k, in the bare and the dressed frame, so both branches of pwc compute the same gate. Signals for couplings and unknown names are refused.", "quantifier": "all component sets, signals, lengths, frames", "why_tests_cant": "arbitrary maps and lengths", "anchors": ["c3/model.py: get_Hamiltonian, update_Hamiltonians", "c3/libraries/chip.py: Drive.get_Hamiltonian, Coupling.get_Hamiltonian", "c3/libraries/propagation.py: pwc"]}
{"id": "C96", "title": "Pauli basis and chi matrix", "statement": "Column a of pauli_basis is the flattened Pauli string number a; the columns are orthogonal with squared norm 2^k and complete, so every operator has unique Pauli coefficients. The chi matrix of a unitary process has entries conj(tr(P_a U)) tr(P_b U), its diagonal is nonnegative and sums to 4^k.", "quantifier": "all qubit numbers, all operators", "why_tests_cant": "all sizes, continuum", "anchors": ["c3/utils/qt_utils.py: pauli_basis", "c3/utils/tf_utils.py: tf_choi_to_chi, super_to_choi"]}
{"id": "C97", "title": "Experiment configuration round trip", "statement": "Writing an experiment to a file and reading it into a new one reproduces its model, generator, instructions, simulation resolution and the four stored options. (The propagation method is not stored and comes back as pwc: refuted.)", "quantifier": "all experiments whose parts can be written", "why_tests_cant": "arbitrary maps", "anchors": ["c3/experiment.py: write_config, read_config, asdict, from_dict"]}
{"id": "C98", "title": "Initial state of simulations", "statement": "A state set on a closed system is the one every simulation starts from, until it is changed; without one the ground state is used. With open system dynamics a real state vector becomes its projector, and a density matrix or its stacked columns the density matrix, whether the dynamics are switched on before or after. (Complex amplitudes are not conjugated, states of a wrong size are dropped silently, switching back keeps the matrix and the default state has a different shape with and without the init_ground task: refuted.)", "quantifier": "all dimensions and states", "why_tests_cant": "arbitrary dimensions and call orders", "anchors": ["c3/model.py: set_init_state, update_init_state, get_ground_state, get_init_state, set_lindbladian"]}
{"id": "C99", "title": "Trajectories of gate sequences", "statement": "compute_states on properly sampled gates succeeds, starts in the initial state and returns one state per sample; running a sequence in two parts gives the same states; compute_final_state returns the last of them; along density matrix trajectories trace and Hermiticity are conserved; an undefined gate raises; the times of a second gate continue those of the first. (From the third gate on the times restart, the final time is that of the last gate only, and without a sequence both fail: refuted.)", "quantifier": "all gate sequences, solvers, systems and samplings", "why_tests_cant": "sequences of any length and all sample counts", "anchors": ["c3/experiment.py: compute_states, compute_final_state", "c3/libraries/propagation.py: ode_solver, ode_solver_final_state"]}
{"id": "C100", "title": "Propagation method", "statement": "An experiment made with the default method computes every propagator with pwc and the folding stack for that gate's number of steps, no matter which state simulations or method changes happened before; unknown method names raise. (A named or user supplied method leaves the folding stacks uncomputed and compute_propagators fails: refuted.)", "quantifier": "all gate sets, resolutions and call histories", "why_tests_cant": "all call histories", "anchors": ["c3/experiment.py: __init__, set_prop_method, _compute_folding_stack, compute_propagators"]}
{"id": "C101", "title": "Open system gates keep density matrices", "statement": "For Hermitian Hamiltonians, any collapse operators and forward times, every time slice, gate and experiment propagator of an open system takes density matrices (Hermitian, positive semidefinite, trace one) to density matrices, with or without frame rotation, for any number of slices. The initial states are density matrices and the populations after any gate sequence are probabilities that sum to one. (The Runge-Kutta solvers do not keep positivity: refuted.)", "quantifier": "all dimensions, Hamiltonians, collapse operators, signals, slice counts and sequences", "why_tests_cant": "continuum, all dimensions and lengths", "anchors": ["c3/libraries/propagation.py: tf_dU_of_t_lind, tf_propagation_lind, pwc, rk4", "c3/experiment.py: compute_propagators, evaluate_legacy, populations", "c3/libraries/tasks.py: InitialiseGround.initialise"]}
{"id": "C102", "title": "Parameter registration", "statement": "A ParameterMap knows exactly the parameters of the model components, tasks, devices, gate components and the Quantity options of gates, each under its hierarchical name and with its length; model identifiers are those of components, tasks and devices. Setting parameters through the map changes the objects their owners hold and no others. Gates made with add_component always register; a gate assigned later is known after update_parameters. Reading a configuration never changes existing parameters, and a gate with mapto is an independent copy holding the given values. (A device named like a subsystem hides its parameters, names with '-' collide, and a mapto gate is registered under another key and loses a user given ideal: refuted.)", "quantifier": "all models, devices, gate sets, configurations and values", "why_tests_cant": "arbitrary nested maps", "anchors": ["c3/parametermap.py: __init__, __initialize_parameters, update_parameters, get_parameter, set_parameters, fromdict", "c3/signal/gates.py: get_optimizable_parameters, add_component"]}
{"id": "C103", "title": "The counting estimators are likelihoods and the median is a median", "statement": "neg_loglkh_binom and neg_loglkh_multinom return the negative logarithm of the geometric mean, over the sequences, of the binomial or multinomial probability of the measured counts under the simulated probabilities; the binomial likelihoods of all possible counts add up to one. For whole expected counts neg_loglkh_binom_norm is at least 0 and neg_loglkh_multinom_norm at least -3/2, with equality exactly when the simulation reproduces the data. median_dist returns a median of the absolute differences. A perfect simulation does not score 0 in neg_loglkh_multinom_norm, as its docstring implies: it scores -3/2.", "quantifier": "for every number of sequences, every number of shots, every vector of counts and of probabilities of any number of outcomes", "why_tests_cant": "the claim covers every data set of any size, and the optimality needs an inequality between factorials and powers at all counts", "anchors": ["c3/libraries/estimators.py:27-31", "c3/libraries/estimators.py:77-105", "c3/libraries/estimators.py:173-203"]}
{"id": "C104", "title": "Model learning compares every selected data set with a simulation at the candidate's parameters, independently of history, and validates on the unused data", "statement": "ModelLearning.goal_run(x) returns the mean, weighted by the number of sequences (three times that for the target 'all'), of the goals of the data sets the sampling selects from every data file, in order. The goal of a data set compares its first seqs_per_point results with a simulation that runs with the candidate x in the optimisation map, the data set's own control parameters in the data file's map (which wins where both name a parameter), every other parameter unchanged, and model matrices computed from exactly these parameters. When all data files set the same control parameters the goal at x does not depend on which candidates were evaluated before. A candidate that reproduces the data gets -1/2. learn_model ends with one evaluation on exactly the data sets the optimisation did not use, at the parameters the map then holds. It does not validate the best candidate but the last; with data files that set different parameters the goal depends on history; and when no data is left for validation the result is 0/0.", "quantifier": "all parameter maps, data files, samplings, simulations, algorithms and evaluation histories", "why_tests_cant": "unit tests run one small data set; history dependence needs two evaluations compared from arbitrary states, and the parameters a simulation sees are never observed", "anchors": ["c3/optimizers/modellearning.py:155-242", "c3/optimizers/modellearning.py:275-360", "c3/optimizers/modellearning.py:181-216", "c3/parametermap.py:285-395"]}
{"id": "C105", "title": "Randomised benchmarking reports the error that belongs to the fitted decay", "statement": "RB simulates, for every requested length, num_seqs random Clifford sequences closed by their inverse, and averages the probability to return to the ground state. With unitary propagators each sequence yields a probability distribution; with ideal gates every sequence returns to the ground state with certainty, on any qubit of a register and for whatever Cliffords are drawn. The returned error per gate v satisfies (1-v)^4 = (1+r)/2 for the decay rate r that curve_fit found for the averages of the simulated lengths, is 0 exactly at r = 1 and grows when r falls. leakage_RB returns leakage and seepage rates in [0,1] that add up to 1 - r_leak, and orbit_infid lies in [0,1] and is 0 for ideal gates. Limits shown as findings: RB looks for gates named \"rx90p[]\" and raises KeyError with the names of an Experiment; with one sequence per length it never ends if curve_fit refuses zero errors; after a failed fit leakage_RB counts only the ground state as computational.", "quantifier": "all dictionaries of propagators, register sizes, lengths, numbers and draws of sequences, all behaviours of curve_fit within its bounds, any number of repeated fits", "why_tests_cant": "The sequences are random, the fit is external and may be repeated with longer sequences; tests check one seed and one gate set.", "anchors": ["c3/libraries/fidelities.py:514-590", "c3/libraries/fidelities.py:609-750", "c3/libraries/fidelities.py:753-790", "c3/utils/qt_utils.py:448-491"]}
{"id": "C106", "title": "A calibration records what it measured and keeps the best measurement", "statement": "Calibration.optimize_controls, for any algorithm and any evaluation function: every parameter vector the algorithm asks for is passed to eval_func once, in order, as the physical values the vector stands for; the best point left in the parameter map is the first measurement with the smallest goal; dataset.pickle, read back by ModelLearning, contains exactly one entry per measurement, in order, with the parameters, sequences, results, standard deviations and shots of that measurement, and the opt_map; if the run is cut short by an exception the file still holds every completed measurement. Refuted for a second run of the same object: current_best_goal survives into the new log directory, so a run without improvement raises FileNotFoundError and leaves a file that model learning cannot read.", "quantifier": "all parameter maps, sequences of calls by the algorithm (with and without gradients), evaluation functions (stochastic ones included), points of failure", "why_tests_cant": "The evaluation function is a real experiment; tests use one simulated landscape, one algorithm and never reread the data set", "anchors": ["c3/optimizers/calibration.py:93-129", "c3/optimizers/calibration.py:131-186", "c3/optimizers/optimizer.py:173-200", "c3/optimizers/optimizer.py:243-313"]}
{"id": "C107", "title": "Figures for sequences of gates, for final states and for level populations", "statement": "average_infid_seq returns one minus the product of the average fidelities of all gates. With unitary propagators and all subsystems evaluated the figure exists, is at least the infidelity of every single gate, at most their sum, less than 1, zero exactly when every gate is perfect up to a phase, and does not depend on the order of the gates. With an index that leaves a subsystem out it always raises (refuted: average_infid_set does not). state_transfer_from_states looks only at the last state of a trajectory: for kets it is one minus the modulus of the overlap with the target, between 0 and 1 and zero exactly for equality up to a phase; for density matrices diagonal in the computational basis it is one minus the squared Bhattacharyya coefficient, zero exactly for equal populations; for other density matrices it is wrong (refuted: |+><+| against itself gives -3). population and lindbladian_population of a level are the squared modulus of the corresponding element of the propagator, agree with each other and add up to 1. lindbladian_average_infid, its set version and the two analytical errors per Clifford raise on every input (refuted).", "quantifier": "all propagators, instructions, registers, indices, states, trajectories, levels and targets of any size", "why_tests_cant": "a test compares a few gates or states; the bounds, the zero sets and the failure on every input are statements about all of them", "anchors": ["c3/libraries/fidelities.py:350-513", "c3/libraries/fidelities.py:793-820", "c3/utils/tf_utils.py:388-401"]}
{"id": "C108", "title": "A compiled optimal control run is the run of the Python code, once", "statement": "OptimalControl.optimize_controls with the tf.function-compiled goal_run, on a new object: the exception (if any), the logged parameters and goals, the stored gradients, the best goal, the best_point file and the parameters set at the end are those of running goal_run as Python at every call with the evaluation number 1. After the run the object keeps the graph: any change to the fidelity function, to the parameters that are not optimised or to the opt_map that leaves the length of the vector alone has no effect on later goals. A second run of the same object that finds nothing better ends in FileNotFoundError, and the evaluation number in the log stays 1.", "quantifier": "All setups, goal and gradient functions of the parameters, parameter maps, sequences of calls an algorithm may make, and changes between two runs.", "why_tests_cant": "Whether tracing once and replaying agrees with running the code each time depends on every attribute read during tracing; tests use one run per object and do not compare with the uncompiled function.", "anchors": ["c3/optimizers/optimalcontrol.py:158-227", "c3/optimizers/optimizer.py:173-313"]}
{"id": "C109", "title": "A sensitivity analysis sweeps each parameter over its points and logs the goal at exactly that value", "statement": "When Sensitivity.sensitivity() finishes, every entry of sweep_map was swept once, over its init_point, the probe list and the requested number of equidistant points between its bounds (widened to contain the probes); every logged line holds the unscaled value and the goal that model learning gives when exactly the parameters of this entry have this value and all others keep what the previous sweep left; sweep_end names the entry and holds its last line. The swept parameter is not put back: later parameters are swept with the earlier ones at the end of their intervals. A sweep that beats no earlier sweep leaves no best point in its directory, and without the option init_point nothing is swept.", "quantifier": "all simulations, sampling functions, data files, sweep maps, bounds, options and parameter values", "why_tests_cant": "A test sweeps one parameter of one model and looks at the plot; it cannot show for all data and simulations which values all other parameters had at every point, nor what one sweep leaves for the next.", "anchors": ["c3/optimizers/sensitivity.py:49-127", "c3/optimizers/optimizer.py:243-275", "c3/libraries/algorithms.py:100-159", "c3/optimizers/modellearning.py:218-360"]}
{"id": "C110", "title": "Jobs on the Qiskit backend: one result per circuit, no influence of earlier jobs, and what breaks this", "statement": "run() on a backend without leftover options and without a state vector sets the given params once, then returns one result per circuit in order: the read-out populations after its gates, starting from the initial state of the model, with the parameters left by the circuits before (a trailing parameter update acts before the gates of its circuit and for all later ones). The results depend only on the current parameter values, not on earlier jobs; circuits without updates give the same results in one job as in separate jobs. A state vector given to a backend that has run a circuit before is exactly the state all circuits start in. (A new backend refuses every state vector, and every later job fails as well; a state vector is silently used again by later jobs, or makes them fail if it was a list; params without opt_map make all later jobs fail and are set later: refuted.)", "quantifier": "all devices, parameter values, option values, circuits, state vectors and sequences of jobs", "why_tests_cant": "The behaviour is a property of sequences of jobs on one backend object; the tests run one job on each backend and test state vectors only for being refused.", "anchors": ["c3/qiskit/c3_backend.py:78-98", "c3/qiskit/c3_backend.py:218-342", "c3/qiskit/c3_backend.py:347-416", "c3/qiskit/c3_backend.py:496-589"]}
{"id": "C111", "title": "The rk4 propagation method and the usable registered methods", "statement": "rk4_unitary evolves with the Hamiltonians H(t) = drift + sum of control fields times control Hamiltonians of the samples: for N samples the gate is the time ordered product of (N-1)/2 classical Runge-Kutta steps, each of the length of two samples and using three successive Hamiltonians; the reported times are every second sample; tf_propagation yields the same slices as pwc. It does not cover the last sample(s), ignores the collapse operators of an open system, multiplies generator.resolution at every call without any effect on the samples, and cannot be used by compute_propagators at all: of the registered methods only pwc accepts the five positional arguments passed.", "quantifier": "for all models, signals, resolutions, numbers of calls and all registered names", "why_tests_cant": "Tests call rk4_unitary once, by hand, with three arguments, and look at no number; what it integrates and for how long is a statement about every signal.", "anchors": ["c3/libraries/propagation.py:104-243", "c3/libraries/propagation.py:518-548", "c3/experiment.py:461-479"]}
{"id": "C112", "title": "Gradient of the model-learning goal", "statement": "ModelLearning.goal_run_with_grad selects, simulates and stores exactly what goal_run does and returns the same goal; each component of the gradient it returns is the derivative of that goal with respect to the corresponding component of the candidate, provided that tf.GradientTape differentiates the goal of each data set correctly. It is also the derivative of the goal that a later evaluation will see, if every data set overwrites the parameters that the runs before it changed.", "quantifier": "for all data, sampling functions, simulations, parameter maps, candidates and components", "why_tests_cant": "A test compares one gradient with a finite difference at one point; that the recorded functions, which start from the parameter map as the earlier data sets left it, together have the derivative of the whole goal needs an argument about all states and data.", "anchors": ["c3/optimizers/modellearning.py:362-446", "c3/libraries/estimators.py:160-170"]}
{"id": "C113", "title": "What an optimal-control run calls", "statement": "OptimalControl looks a named fidelity up in the library (with the prefix lindbladian_ for an open-system model), uses propagators unless an ODE solver is named, and takes the algorithm from the library. A goal is the fidelity function on the propagators or states computed after the candidate has been assigned, together with the instructions, the subspace index, the dimensions, the evaluation number and the user's keyword arguments, and nothing else. The named fidelities that can be evaluated, and the keyword arguments each needs, are exactly those listed; callbacks are never evaluated.", "quantifier": "for all names, functions, keyword arguments, models, goal functions, subspaces and candidates", "why_tests_cant": "Tests run three or four combinations of fidelity, keyword arguments and solver; that no keyword arguments make the other registered functions work needs all of them.", "anchors": ["c3/optimizers/optimalcontrol.py:50-145", "c3/optimizers/optimalcontrol.py:171-186", "c3/optimizers/optimalcontrol.py:200-291", "c3/optimizers/optimizer.py:60-65", "c3/libraries/fidelities.py:44-806", "c3/libraries/algorithms.py:17-26"]}
{"id": "C114", "title": "What the command line does with a configuration", "statement": "run_cfg works exactly if the configuration names one of six optimisation types, says how to build the experiment (instructions or exp_cfg), leaves for the optimiser only keys its constructor takes and all keys it needs, and no step raises. Then the steps are done in a fixed order: read model, generator, instructions, experiment; set the gates and the optimisation map (exp_opt_map after gateset_opt_map); build the optimiser; load the initial point; run. The optimiser runs at most once, last, never with debug, and only when all steps before it worked. An unknown or missing key stops before anything is loaded or run. Refuted: the announced quick setup, adjust_exp, and a list as initial_point never work; confirm does what C3 does; ModelLearning needs state_labels in spite of its default.", "quantifier": "all configurations (any keys and values), all outcomes of the steps, both settings of debug", "why_tests_cant": "The configuration is an arbitrary dictionary and the steps may fail at any point; a test covers one file and one failure.", "anchors": ["c3/main.py:26-127", "c3/optimizers/optimalcontrol.py:50-69", "c3/optimizers/modellearning.py:51-91", "c3/optimizers/optimizer.py:51-53"]}
{"id": "C115", "title": "The quick setup drives every qubit on resonance", "statement": "Instruction.quick_setup puts a Gaussian envelope and a carrier on a channel such that, for every sideband and every sampling, local oscillator, waveform generator and mixer together put out a pulse at exactly the frequency asked for: the carrier is lowered by what the envelope adds. It works exactly for gate times and conversion factors of the same sign on an existing channel, and the amplitude can be optimised between 0 and three times its value. Experiment.quick_setup creates exactly the configured gates, each on the drive lines of its qubits, with the gate times configured and at the frequencies of the qubits; file names are relative to the configuration file. Refuted: absolute file names work without a directory; the chosen propagation method is kept; two qubits on one drive line are both driven.", "quantifier": "all configurations, models, frequencies, gate times, conversion factors, sidebands, time grids", "why_tests_cant": "The pulse is a function on a continuum of parameters and times; that the sideband cancels exactly is an identity, not an example.", "anchors": ["c3/signal/gates.py:372-403", "c3/experiment.py:124-212", "c3/signal/pulse.py:36-62", "c3/signal/pulse.py:245-262", "c3/generator/devices.py:914-939"]}
{"id": "C116", "title": "Gradient descent, adaptive scan and the refined evolution strategy visit the points they document", "statement": "tf_sgd is gradient descent with momentum (heavy ball): with a differentiable goal it makes exactly maxiters steps, calls the goal at both ends of every step (twice per iteration) and returns the last iterate; on a quadratic goal without momentum every coordinate shrinks by 1 - lr*curvature per step, so the default converges for curvatures below 20. maxfun is refused, maxiters required, nothing is evaluated on wrong options. adaptive_scan calls the goal at all probe points in order, then where the sampling library asks, within the smallest interval around bounds and probes. gcmaes tells the strategy the locally optimised samples and stops exactly where cmaes would. Refuted: tf_sgd returns the best point seen; adaptive_scan runs with bounds alone, with numeric probe points, or twice with the same options.", "quantifier": "all goals, gradients, start points, options, iteration counts, library behaviours", "why_tests_cant": "Iteration counts and starting points are unbounded and the goal is arbitrary; convergence is a limit statement.", "anchors": ["c3/libraries/algorithms.py:163-234", "c3/libraries/algorithms.py:237-289", "c3/libraries/algorithms.py:593-662"]}
{"id": "C117", "title": "Every run has a log directory of its own", "statement": "log_setup returns a directory that did not exist before the call, exists afterwards, is named <data>/<run name>/<time stamp> (below c3logs in the temporary directory if no data path is given) and is returned to no other call, for any number of processes calling it at the same time in any interleaving. Nothing that existed is lost except the link 'recent' of a data directory, and whatever that link newly points to is an existing directory made by one of these calls. A single process waits while the directory of the current second exists, takes the first free second and sets 'recent' to it; if the link may not be removed it stays and one warning is given. Refuted: a run may be called 'recent'; two equally named runs may start in the same second; all runs stay inside the data directory.", "quantifier": "all file systems, data paths, run names, clocks, numbers of processes and interleavings", "why_tests_cant": "Interleavings of several processes on a shared file system cannot be enumerated by tests.", "anchors": ["c3/utils/utils.py:11-48", "c3/utils/utils.py:51-65"]}
{"id": "C118", "title": "The TensorBoard file holds the running minimum", "statement": "An optimiser with a TensorBoardLogger writes at the start every optimised name with its value at step 0. During a run with numeric goals exactly those evaluations are in the file, in order, whose goal is not above any earlier goal; each is written completely: every name with the value of its group, the goal, the gradient cut off at +-3, further floats as scalars and lists as histograms. Any other value type raises. replace_logdir sets the directory with every colon replaced and changes nothing in the file system but one link and one empty directory. Refuted: an open-loop optimisation can be logged (KeyError: its status has no time); a NaN goal does not disturb the minimum; parameters with several values can be logged; replace_logdir tells the loggers and removes the link of the data directory.", "quantifier": "all parameter maps, statuses, runs of any length, file systems", "why_tests_cant": "The file depends on the whole history of goals; the tests only check that a logger can be attached.", "anchors": ["c3/optimizers/optimizer.py:335-425", "c3/optimizers/optimizer.py:67-92", "c3/optimizers/optimizer.py:195-200"]}
{"id": "C119", "title": "The log reader shows what was stored", "statement": "The table of c3's log reader lists every optimised name once, in the order of the parameter map; the first name of a group with the stored value and gradient (0 if none is stored) and the unit of the group, its equivalents with ditto marks; above it stored goal and time. A file with too few values raises IndexError. Refuted: the watch mode follows the file (it shows the first content for ever, from the second refresh on with goal -1 at time 0); points with array parameters can be shown.", "quantifier": "all stored points, numbers of groups and names, numbers of refreshes", "why_tests_cant": "The reader's state changes while it shows the log (values are popped); this is visible only over several refreshes.", "anchors": ["c3/utils/log_reader.py:12-71", "c3/utils/utils.py:96-98"]}
{"id": "C120", "title": "Devices with random noise", "statement": "The noisy local oscillator gives, for every sample, amplitude times cosine and sine of a phase: amplitude noise scatters the amplitude around 1, phase noise the phase around that of the carrier, frequency noise makes the phase a random walk around it; every sample uses its own random numbers; without amplitude noise the samples stay on the unit circle; with all random numbers 0 it is the noiseless oscillator; negative scales raise ValueError. Noise devices keep the time points and return every entry plus the noise recorded beside it; white noise is drawn per sample, constant noise once per component; pink noise is the amplitude times the sum of two-state fluctuators, each flipped at the steps at which the number drawn for it was below the inverse of its rate, so it takes at most n+1 equidistant values. Refuted: all noises given are applied; the slowest pink fluctuator has a rate equal to the number of samples.", "quantifier": "all random number streams, scales, signals, grids, numbers of fluctuators and carriers", "why_tests_cant": "Random outputs cannot be compared with expected values; the statements hold for every stream of random numbers.", "anchors": ["c3/generator/devices.py:1073-1130", "c3/generator/devices.py:964-1035"]}
{"id": "C121", "title": "The high pass filter", "statement": "HighpassFilter.process returns in-phase and quadrature signals of the same length and time points, the convolution of the input (0 outside) with a symmetric kernel that is 1 in the middle and minus the normalised windowed sinc elsewhere; the number of taps is the smallest odd number not below 4 over the relative rise time. Refuted: a constant signal is removed (it comes out divided by the sum of the windowed sinc, never as 0); short signals are filtered (fewer samples than taps: returned unchanged); cutoff alone is enough (KeyError without rise_time).", "quantifier": "all signals, cutoffs, rise times, resolutions", "why_tests_cant": "Convolutions of any length; the device has no unit test of its values.", "anchors": ["c3/generator/devices.py:792-904"]}
{"id": "C122", "title": "The piecewise constant solver converges to the Schroedinger equation", "statement": "For a closed system whose drive fields change by at most l_k per unit of time, the propagator computed by pwc from the fields sampled in the middle of N slices of length dt differs from the exact solution U(T) of i dU/dt = H(t) U, H(t) = H0 + sum_k c_k(t) H_k, by at most (sum_k l_k |H_k|) T dt / 4 in the Euclidean norm, and populations of a normalised state by at most twice that. Hence for given fields and duration every precision is reached by all fine enough resolutions, for every batch size; for constant fields the result is exact at every resolution and equals exp(-i H T).", "quantifier": "all models, dimensions, numbers of drive lines, fields with bounded slope, resolutions, durations, batch sizes, solutions and states", "why_tests_cant": "Tests compare single pulses with stored numbers; no run can show that the discretisation error vanishes for all Hamiltonians and fields.", "anchors": ["c3/libraries/propagation.py:258-340", "c3/utils/tf_utils.py:126-166"]}
{"id": "C123", "title": "The ODE solvers converge to the equation of motion", "statement": "Let the fields on the drive lines be Lipschitz, sampled N times at distance T/N from t0 on, and let x be the solution of the equation of motion (Schroedinger, von Neumann, or the master equation with the collapse operators of the model) with the Hamiltonian drift + sum c_k(t) H_k from the given initial state. Then every state ode_solver returns for each of rk4, rk38, rk5 and tsit5 differs from x at the end of its step by at most a constant, which does not depend on N, times T/N, plus (for tsit5 only) a floor of 1e-13 times this constant because its decimals are rounded. For rk4, rk38 and rk5 the error goes to zero as N grows. ode_solver_final_state returns the last of these states.", "quantifier": "all dimensions, Hamiltonians, collapse operators, Lipschitz fields, times, initial states, solvers, step functions, numbers of samples", "why_tests_cant": "A unit test compares one pulse at one resolution with a stored number; that the error goes to zero for all Hamiltonians and fields, including the interpolation between the samples and beyond the last one, is a statement about a limit.", "anchors": ["c3/libraries/propagation.py:688-905", "c3/utils/tf_utils.py:521-559", "c3/model.py:691-698"]}
{"id": "C124", "title": "The optimisation goals measure the physical gate", "statement": "For a closed system, an experiment that computes its propagators with the piecewise constant solver returns for every gate a matrix within (speed of the Hamiltonian) x (gate length) x (slice length) / 4 of the propagator of the Schroedinger equation for the continuous fields, seen in the same rotating frame. The values of unitary_infid_set, average_infid_set and state_transfer_infid_set on the simulated propagators differ from their values on the physical propagators by at most 2 e / sqrt d, 2 sqrt d e / (d + 1) and e, where e bounds that distance and d = 2^(number of index qubits). So a goal reached in simulation is reached by the physical device up to an explicit error that vanishes with the slice length.", "quantifier": "all models with Hermitian drift and control Hamiltonians, all gate sets, all Lipschitz fields, all slice lengths, all dims and computational subspaces, all unitary ideal gates and initial states", "why_tests_cant": "tests evaluate goals of a few simulated gates and compare with stored numbers; they cannot bound the distance to the physical evolution", "anchors": ["c3/experiment.py:440-534", "c3/libraries/fidelities.py:86-149", "c3/libraries/fidelities.py:154-222", "c3/libraries/fidelities.py:290-350"]}
{"id": "C125", "title": "C3 gates in Qiskit circuits mean the same to C3 and to Qiskit", "statement": "The nine rotation classes of c3_gates have exactly the matrices of the C3 gates of the same names. A circuit of such gates on a register of any size does in Qiskit (qubit 0 least significant) what the product of the gates of get_perfect_gates does in C3 (qubit 0 most significant), basis state by basis state. For gates on several qubits, Qiskit does with the qubits in an order what C3 does with the targets in the reverse order; gates that are symmetric in their qubits (iswap, cz, ccz) agree, the cross-resonance gates and cx, crxp, crzp do not. get_perfect_gates returns exactly the gates asked for; an unknown name is an error.", "quantifier": "all register sizes, all circuits, all gate matrices and target lists without repetition", "why_tests_cant": "tests compare single-qubit matrices and a few one- and two-qubit circuits", "anchors": ["c3/qiskit/c3_gates.py:12-115", "c3/experiment.py:409-438", "c3/libraries/constants.py:50-89", "c3/signal/gates.py:140-162"]}
{"id": "C126", "title": "Slepian pulses are symmetric, flat between their ramps and bounded; plateau and delta pulses land where asked", "statement": "slepian_fourier: for any coefficients (cosine and sine) the pulse is symmetric about t_final/2, equals offset/amp outside and at the ends of the window of length width, and is constant strictly between rise and fall. With a positive sample the largest value is 1; with coefficients that are not negative all values lie between offset/amp and 1. Scaling all coefficients by a positive number changes nothing. It fails exactly for no sample, amp = 0 or a largest sample 0. pwc_shape_plateau with samples from time 0 is the first half of pwc_shape, then 1 for width - T, then the second half, and 0 outside [0, width]. delta_pulse is 1 exactly at the samples nearest to 1 ns after a listed time. flattop_risefall_1ns is flattop_risefall with 1 ns and overwrites the caller's rise time. Findings: negative coefficients give values above 1; the pulse has a notch at the two ends of the flat part; the plateau sits at half the length of the samples whatever t_bin_start, has height 1 whatever the samples and a notch at its end; delta_pulse comes one sample late on a nanosecond grid; flattop_risefall and the gaussians return real numbers and cannot be multiplied with the mask.", "quantifier": "all times, coefficients, widths, rise times, offsets, amplitudes, samples and parameter dictionaries", "why_tests_cant": "tests compare a few sampled pulses with stored numbers; symmetry, bounds and the instants where the branches meet are not sampled", "anchors": ["c3/libraries/envelopes.py:25-34", "c3/libraries/envelopes.py:71-101", "c3/libraries/envelopes.py:128-139", "c3/libraries/envelopes.py:330-370", "c3/signal/pulse.py:113-141"]}
{"id": "C127", "title": "The tomography sequences determine a two-qubit gate completely", "statement": "two_qubit_gate_tomography(gate) returns 256 sequences of five gates with the gate under test in the middle. With perfect preparation and analysis gates, from the ground state, the populations evaluate returns for all sequences are the same for two gates of an open system (superoperators that keep Hermitian matrices Hermitian) if and only if the two superoperators are equal, and the same for two unitary gates of a closed system if and only if they are equal up to a phase. Finding: the sequences use the name Id, which the gate table does not have, so instructions with these names get an ideal gate on fewer qubits.", "quantifier": "all gate names, all pairs of Hermiticity-preserving 16x16 superoperators and of 4x4 unitaries, all dictionaries of propagators with perfect one-qubit gates", "why_tests_cant": "no finite number of gates tried shows that two different gates are always told apart", "anchors": ["c3/utils/qt_utils.py:337-361", "c3/experiment.py:273-302", "c3/experiment.py:603-624"]}
{"id": "C128", "title": "A model in a basis given by the user", "statement": "Model_basis_change with a unitary U_transform whose vectors each have a component of weight above 1/2 with nonzero real part works in the basis of exactly these vectors, each labelled by its largest component and with the sign that makes that component's real part positive; its transformation is unitary. The propagator of a closed system is the bare one seen from this basis: the absolute values of its entries are those between the given vectors. Giving the model its own basis back changes nothing; without U_transform (or for the identity) it has the bare operators; with ordered=False the matrix is used as it is. Refuted: a change of basis that permutes states or flips signs is undone; a unitary with a purely imaginary largest component (a phase gate) drops the level from every operator; a matrix that is not unitary is accepted and changes the energies.", "quantifier": "all dimensions, all unitary matrices with labelled columns, all operators, control signals and folding stacks; all signed permutations", "why_tests_cant": "The only test compares the dressed operators with the same formula for one random (not unitary) matrix; it cannot see that the result is a basis of the given vectors, nor what happens for permutations and phases.", "anchors": ["c3/model.py:700-736", "c3/model.py:453-491", "c3/model.py:504-534"]}
{"id": "C129", "title": "Flux dependence of the C-shunt flux qubit", "statement": "As long as the parameters stay the same, get_frequency, get_anharmonicity and get_Hamiltonian of a CShuntFluxQubit do not depend on which methods were called before, how often and with which signals: the minimum of the potential without signal is the one scipy's search finds, at the 49 grid points of a period the one found at that flux, between them a weighted mean of the neighbours, and it is periodic in the flux quantum; the Hamiltonian is that of a qubit with the frequency and anharmonicity at the minimum; a signal raises NotImplementedError. For gamma = 0 it is a transmon with frequency sqrt(8 EJ EC) - EC and anharmonicity -EC at every flux. Refuted: after a parameter change the table of minima is kept: the anharmonicity (and from the second update on also the frequency) is computed at the minimum of the old parameters, so the third level is off by up to the charging energy; a change that keeps the potential at 0, such as reversing the flux, is not noticed at all; the anharmonicity at a flux signal is taken at the minimum without signal.", "quantifier": "all parameters, all sequences of calls with all signals, all minimum searches, all embeddings and dimensions", "why_tests_cant": "No test uses the class, and the result depends on the history of calls through a hidden cache; tests of single calls on new objects cannot see stale entries.", "anchors": ["c3/libraries/chip.py:787-826", "c3/libraries/chip.py:834-868", "c3/libraries/chip.py:886-910", "c3/libraries/chip.py:728-729"]}
{"id": "C130", "title": "Stored unitaries", "statement": "With store_unitaries a run makes <logdir>unitaries/ and, for evaluation number i = 0, 1, ... with goal g, the folder eval_<i>_<g>/ holding in Us.pickle exactly the propagators the experiment has after that evaluation (those computed in it, or with overwrite_propagators off the latest one of every gate), and one text file per gate, named after it with ':' replaced by '.'; two evaluations never share a folder, every evaluation is in the log and no other file changes. Without store_unitaries nothing is written. Refuted: OptimalControl can store unitaries at all (its compiled goal function leaves symbolic tensors: the first evaluation raises and leaves a broken file); a run can be repeated in its directory; gates whose names differ in ':' and '.' have separate files; gate names with a slash; the log directory may be given without a slash at its end; log_best_unitary keeps the stored best parameters.", "quantifier": "all file systems, log directories, goals, propagators, numbers of evaluations and gate names without slashes", "why_tests_cant": "The claim is about the files left by runs of any length; the existing tests never switch the storing on.", "anchors": ["c3/experiment.py:526-531", "c3/experiment.py:560-602", "c3/optimizers/optimizer.py:160-199", "c3/optimizers/optimalcontrol.py:163-227"]}
{"id": "C131", "title": "Printed parameters", "statement": "str_parameters and print_parameters show the groups of the optimisation map in order: the first name (filled up to 38 characters) with its value, then the other names of the group one per line and a blank line. A value with a unit is printed with three decimals and a metric prefix which together give value/prefactor to a relative precision of 1/2000 for magnitudes between 1e-21 and 1e24; numbers printed alike differ by at most a thousandth. An empty group raises IndexError, an unknown first name KeyError, nothing else. Refuted: the values of all members are shown; print_parameters shows parameters with more than four values; the sign is always shown.", "quantifier": "all parameter maps, optimisation maps, quantities, units and values", "why_tests_cant": "Precision and injectivity of the printed text are statements about all real values; the test only calls print_parameters and looks at nothing.", "anchors": ["c3/parametermap.py:458-499", "c3/c3objs.py:222-232", "c3/utils/utils.py:66-105"]}
{"id": "C132", "title": "Fidelities and expectation values of density matrices", "statement": "tf_measure_operator(M, rho) is <psi|M|psi> for rho = |psi><psi|, linear in rho, real for Hermitian M and rho, the same in both pictures (moving rho by U is moving M by U^+); outcomes K^+ K have non-negative values that add up to one when the effects add up to the identity. tf_dmket_fid(rho, psi) is sqrt <psi|rho|psi>, between 0 and 1, and equals tf_ketket_fid for pure rho. tf_dmdm_fid(rho, sigma) equals tf_dmket_fid for a pure rho, the overlap for two pure states, one for equal density matrices, and is unchanged by a common unitary. These fidelities are amplitudes, not probabilities, unlike tf_unitary_overlap.", "quantifier": "all dimensions, density matrices, observables, state vectors and unitaries; all matrix root functions that return the positive root", "why_tests_cant": "tests can only compare numbers for a few states; the functions are used with arbitrary mixed states", "anchors": ["c3/utils/tf_utils.py:99-116", "c3/utils/tf_utils.py:311-327"]}
{"id": "C133", "title": "Backends of the Qiskit provider", "statement": "C3Provider() makes one backend per class in SIMULATORS and fails if one cannot be made. backends() lists one backend per name, backends(name) and get_backend(name) give the one made from the last class with that name and raise QiskitBackendNotFoundError for other names. Repeated requests to one provider give the same backend, so an experiment set on one handle is the experiment of the other; another provider has backends of its own with an empty experiment. filters is ignored. C3Options.to_dict() shows exactly the five documented options with their values and raises AttributeError when one is missing.", "quantifier": "all lists of backend classes, names, filters and option sets", "why_tests_cant": "the aliasing between handles shows only when two parts of a program ask for a backend and one reconfigures it", "anchors": ["c3/qiskit/c3_provider.py:8-95", "c3/qiskit/c3_options.py:22-36", "c3/qiskit/c3_backend.py:71-81"]}
{"id": "C134", "title": "Options and artificial noise of the evolution strategy", "statement": "cmaes reads noise, batch_noise, init_point, spread, stop_at_convergence and stop_at_sigma from the options, with defaults 0, 0, False, 0.1, off and off, and gives all other options to the library. Without noise the library is told the goals themselves and no random number is drawn; with noise each goal gets its own error noise * randn. batch_noise never changes a goal. The options are removed from the dictionary the optimiser keeps, so a second run uses the defaults. cma_pre_lbfgs uses the options of each stage first and the common ones otherwise; in a second run the evolution strategy keeps the common options but loses its own, and the common options of the evolution strategy also reach the gradient search.", "quantifier": "all option dictionaries, goal functions, random sequences, numbers of samples and repeated runs", "why_tests_cant": "the loss of options shows in the second run only; noise makes runs irreproducible", "anchors": ["c3/libraries/algorithms.py:491-516", "c3/libraries/algorithms.py:541-557", "c3/libraries/algorithms.py:569-589", "c3/optimizers/optimalcontrol.py:178-185"]}
{"id": "C135", "title": "The propagation step with a separate drift", "statement": "pwc_trott_drift(h0, hks, cflds_t, dt) computes the drift exp(-i dt h0) exactly from real eigenvectors, and returns drift * exp(-i dt sum_k c_k h_k) * (drift + dt^2/2 [h0, ht]). The drift is therefore applied twice: without control fields the step is exp(-2 i dt h0), which differs from the evolution for every step length. The drift depends on the phase in which the eigenvectors are returned. Unless tensorflow's numpy behaviour is switched on, the function raises AttributeError for all arguments.", "quantifier": "all dimensions, drift Hamiltonians, control Hamiltonians, fields, step lengths and diagonalisations", "why_tests_cant": "the function is not called by the package and no test covers it; its result is a unitary matrix of the right shape in simple cases", "anchors": ["c3/libraries/propagation.py:443-457"]}
{"id": "C136", "title": "Changing the signal chains of a generator", "statement": "set_chains(chains) stores the chains in every case and checks them afterwards. If a channel is refused, the exception is that of the first refused channel; the channels before it have their new device order, the others keep the order they had. A later accepted set of chains repairs the generator completely: generate_signals gives what a generator would give that only ever saw the accepted chains. Until then generate_signals works with the refused chain in the old order, for instance a mixer with one of its two inputs. An empty dictionary changes nothing.", "quantifier": "all generators, chains, refused and accepted changes, channels and device behaviours", "why_tests_cant": "tests check that wrong chains raise, not what the generator does after the exception was caught", "anchors": ["c3/generator/generator.py:52-91", "c3/generator/generator.py:172-229"]}
{"id": "C137", "title": "The excitation limit and the Hamiltonians read with it", "statement": "After set_max_excitations(m) with m other than 0, get_Hamiltonian() has one row per state of at most m excitations and holds the elements of the Hamiltonian of the frame in use between them; get_sparse_Hamiltonian() has the full size, with those elements in place and zero elsewhere. A later limit replaces an earlier one and 0 gives the whole Hamiltonian. Findings: without a limit get_sparse_Hamiltonian() fails for lack of a cutter, and after a limit was taken back it fails because the old cutter is still there; get_Hamiltonians() fails under a limit since it cuts the dictionary of controls; get_sparse_Hamiltonians() always fails, since it unpacks the method instead of its result.", "quantifier": "for all dimensions, limits, histories of limits and Hamiltonians", "why_tests_cant": "Tests read Hamiltonians of a few chips with one limit each and never take a limit back.", "anchors": ["c3/model.py:198-224", "c3/model.py:353-415"]}
{"id": "C138", "title": "Subsystems without a coupling evolve independently", "statement": "If the Hamiltonian of a model of two subsystems is the sum of their drifts, each embedded with hilbert_space_kron, and every drive line acts on one of them, then the propagator of the pwc method for a gate is the Kronecker product of the propagators that each subsystem has alone, driven by its own lines only. A subsystem no line drives evolves with its drift. The outcome probabilities of one subsystem, for product and entangled initial states, do not depend on what is driven on the other.", "quantifier": "for all dimensions, Hamiltonians, drive lines in any order, signals, numbers of time slices and batch sizes", "why_tests_cant": "Tests run single chips with couplings; independence is a statement about all signals on both parts at once.", "anchors": ["c3/libraries/propagation.py:264-340", "c3/utils/qt_utils.py:68-96", "c3/model.py:423-440"]}
{"id": "C139", "title": "A limit on the number of excitations is exact for dynamics that does not cross it", "statement": "If no Hamiltonian of a gate connects a state with at most max_excitations excitations and one with more, the propagator pwc computes with the limit set (the Hamiltonians cut, the result blown up) equals, between any two states within the limit, the propagator of the full model, and is zero everywhere else.  The number term, the anharmonicity, the flux (Z) drive and the exchange coupling int_XX + int_YY of any two subsystems conserve the number of excitations, as do their sums and multiples, so they meet the condition for every limit.  int_XX alone does not: it connects the ground state and the state with both subsystems excited.", "quantifier": "all lists of dimensions, limits, numbers of time slices, batch sizes, sampled Hamiltonians, time grids, and pairs of states", "why_tests_cant": "Tests compare a few sparse and dense simulations of one chip within a tolerance; that the cut commutes with exponential and product needs a proof for all matrices.", "anchors": ["c3/libraries/propagation.py:pwc", "c3/utils/tf_utils.py:tf_propagation", "c3/model.py:cut_excitations", "c3/model.py:blowup_excitations", "c3/libraries/hamiltonians.py"]}
{"id": "C140", "title": "States the Hamiltonians do not connect exchange no population", "statement": "Sort the basis states into classes in any way.  If neither the drift nor any control Hamiltonian has an element between two classes, then no propagator or partial propagator pwc computes has one, and after any sequence of gates the populations evaluate reports add up, class by class, to those of the initial state.  In particular diagonal Hamiltonians (detunings, flux pulses) change no population, and Hamiltonians that conserve the number of excitations keep the population of every number.", "quantifier": "all classifications, models, signals, numbers of samples, batch sizes, folding stacks, initial states and gate sequences", "why_tests_cant": "A test runs a few pulses and compares within a tolerance; leakage out of a symmetry sector for other pulses cannot be excluded that way.", "anchors": ["c3/libraries/propagation.py:pwc", "c3/experiment.py:evaluate_legacy", "c3/experiment.py:populations", "c3/utils/tf_utils.py:tf_propagation"]}
{"id": "C141", "title": "Pulses played one after the other, backwards, and with an energy offset", "statement": "The propagator pwc computes for pulses that follow one another is the product of the propagators of the parts, the later one to the left, in closed and open systems, and its list of partial propagators is the concatenation; so a gate may be cut into consecutive gates.  The pulses played backwards with the opposite sign, for the opposite drift, undo the gate.  Adding the same energy to all states multiplies the propagator by the phase exp(-i c T) and changes no population.", "quantifier": "all models, controls, pulse samples, numbers of samples, batch sizes, initial states and offsets", "why_tests_cant": "A test tries one cut of one pulse, and compares within a tolerance; cuts next to the ends of the folding stack or with an odd number of samples behave differently in the code.", "anchors": ["c3/libraries/propagation.py:pwc", "c3/utils/tf_utils.py:tf_propagation_vectorized", "c3/utils/tf_utils.py:tf_matmul_n"]}
{"id": "C142", "title": "Simulated relaxation and dephasing follow the exponential laws of the times given", "statement": "Open system, one collapse operator, any number of time slices.  For a Qubit with t1 only, while the Hamiltonians commute with its number operator, the mean number of its excitations after a gate of duration T is exp(-T/t1) times that before (for a Transmon exp(-T/(2 t1)): its simulated lifetime is twice the t1 given).  For a Qubit or Transmon with t2star only, while the Hamiltonians are diagonal, the coherence between two basis states is multiplied by exp(-(n - n')^2 T/t2star), n and n' the excitations of that qubit, and by the phase of the difference of the energies; populations do not change.", "quantifier": "all chips, positions of the qubit, times t1 and t2star, pulses that keep the condition, numbers of samples, batch sizes and density matrices", "why_tests_cant": "A test fits a decay to a few simulated points; that the law is exactly exponential with exactly this rate for every state and chip needs the eigenvalue argument.", "anchors": ["c3/libraries/chip.py:Qubit.get_Lindbladian", "c3/libraries/chip.py:Transmon.get_Lindbladian", "c3/utils/tf_utils.py:tf_propagation_lind", "c3/libraries/propagation.py:pwc"]}
{"id": "C143", "title": "The master equation without dissipation changes nothing", "statement": "Simulating a gate with the Lindblad master equation, but without collapse operators, gives the superoperator of the propagator U of the same gate simulated with the Schroedinger equation: rho goes to U rho U^dagger. An experiment built from such gates reports the same populations, and the same errors, for any gate sequences with both settings, when it starts from real amplitudes. (For complex amplitudes the reported populations are wrong, even negative.)", "quantifier": "for all models with Hermitian Hamiltonians, all signals on a common grid, all batch sizes, all gate sequences and all initial states with real amplitudes", "why_tests_cant": "The two settings run different code on matrices of different sizes; a test compares the results for one chip and a few pulses up to rounding.", "anchors": ["c3/libraries/propagation.py:255-340", "c3/libraries/propagation.py:388-430", "c3/experiment.py:273-302", "c3/utils/tf_utils.py:300-330"]}
{"id": "C144", "title": "The drive strength estimate depends only on the size of the envelope", "statement": "After AWG.process for a channel, get_average_amp for that channel returns the mean and the sum of the sizes of the samples of its complex envelope, whatever other channels are processed afterwards; an unknown channel is refused. Changing the phases of all components together leaves the estimate, and multiplying all amplitudes by c multiplies it by |c|. The mean lies between 0 and the largest sample and is 0 only for a drive that is off. (log_shapes fails as soon as there is a waveform to log.)", "quantifier": "for all envelopes, sample rates, times, phases, factors and sequences of processed channels", "why_tests_cant": "A test evaluates one pulse; invariance under every phase and the bounds are statements about all envelopes.", "anchors": ["c3/generator/devices.py:1159-1197", "c3/generator/devices.py:1199-1229", "c3/signal/gates.py:341-370"]}
{"id": "C145", "title": "Open subsystems without a coupling evolve independently", "statement": "With the master equation switched on, a gate on a model made of two subsystems without a coupling, where each collapse operator acts on one subsystem, takes a product of density matrices to the product of the density matrices each subsystem reaches alone under its own drive lines. For every state, entangled or not, the reduced state of one subsystem does not depend on what is done to the other or on what the other loses.", "quantifier": "all pairs of subsystems of any dimension, all drive signals on a common time grid, all numbers of slices, all collapse operators, all density matrices", "why_tests_cant": "A test compares one two qubit device at one pulse; independence is a statement about the exponentials of all Lindblad generators.", "anchors": ["c3/libraries/propagation.py:255-340", "c3/libraries/propagation.py:388-430", "c3/model.py:393-430"]}
{"id": "C146", "title": "The operators of a model follow its settings", "statement": "After set_dressed, set_lindbladian or update_model returns, whatever calls came before (calls that raised included), the model's parameters are unchanged, its settings are those asked for, and get_Hamiltonians and get_Lindbladians return the drift, the controls and the collapse operators of the current parameters, all bare or all in the dressed frame of the current drift. Two models with the same parameters and settings read the same. Without the master equation the calls always return; with it they return exactly when every subsystem provides its collapse operator.", "quantifier": "all component parameters, all Hamiltonians and collapse operators of any dimension, all states the model can be in, all calls, all eigendecompositions", "why_tests_cant": "A test switches the settings once in one order; stale operators appear only for particular orders of calls, parameter changes and failures.", "anchors": ["c3/model.py:43-57", "c3/model.py:311-336", "c3/model.py:353-366", "c3/model.py:417-451", "c3/model.py:493-534"]}
{"id": "C147", "title": "The zero of energy does not matter", "statement": "Adding a constant to the drift Hamiltonian multiplies every gate of a closed system by the phase exp(-i c T), with T the duration of the gate, for all pulses; with the master equation it changes nothing. Such a phase changes neither unitary_infid, average_infid and state_transfer_infid nor the populations an experiment reports for any gate sequences.", "quantifier": "all models of any dimension, all constants, all pulses on a common time grid, all numbers of slices, all ideal gates, states and gate sequences", "why_tests_cant": "A test compares one shifted model at one pulse; the exponentials of all sampled Hamiltonians are involved.", "anchors": ["c3/libraries/propagation.py:255-340", "c3/libraries/propagation.py:551-585", "c3/libraries/fidelities.py:120-184", "c3/libraries/fidelities.py:290-311", "c3/experiment.py:273-302"]}
{"id": "C148", "title": "Constant drives are propagated exactly, and idling changes no population", "statement": "When every line keeps its value over the pulse, the gate of a closed system computed by pwc is exactly exp(-i H T) with H the driven Hamiltonian and T the duration, so that the number of slices does not matter. States of definite energy only collect the phase of their energy, and the mean energy of every state is conserved. With no drive at all and a diagonal (dressed) drift, each level collects the phase of its energy and the populations of every state stay the same.", "quantifier": "all closed models of any dimension with hermitian operators where stated, all constant drives on a common time grid, all numbers of slices, all states", "why_tests_cant": "A test propagates one constant pulse with one resolution, up to rounding; exactness for all resolutions, Hamiltonians and states needs the algebra of the exponential.", "anchors": ["c3/libraries/propagation.py:114-162", "c3/libraries/propagation.py:259-340", "c3/libraries/propagation.py:349-380", "c3/utils/tf_utils.py:178-215", "c3/experiment.py:594-617"]}
