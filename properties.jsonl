{"id": "C01", "title": "Evaluation budget is never exceeded", "statement": "For a strategy created with budget max_evals, num_evals + pending_evals never exceeds max(max_evals, 0): the strategy never has more completed-plus-outstanding evaluations than the budget, whatever the order in which proposals are accepted or rejected, evaluations complete or are killed/cancelled, restarts are triggered and the run is crashed and resumed from a checkpoint.", "quantifier": "all configurations, all generated points, all interleavings of propose/accept/reject/complete/abort/crash/resume", "why_tests_cant": "tests run one schedule per strategy with a benign objective; the bound must hold on every interleaving of callbacks and every crash point", "anchors": ["pySOT/strategy/surrogate_strategy.py: propose_action, check_termination, make_proposal, on_*", "pySOT/controller/controller.py: resume"]}
{"id": "C02", "title": "Terminate is proposed only when idle, and is final", "statement": "propose_action returns a terminate proposal only when no proposal or evaluation made by the strategy is outstanding, and once the stopping criterion has been reached the strategy never proposes another evaluation.", "quantifier": "all reachable states and all later schedules", "why_tests_cant": "absence of a later proposal is a statement about every continuation of the run", "anchors": ["pySOT/strategy/surrogate_strategy.py: propose_action, check_termination"]}
{"id": "C03", "title": "The whole budget is used", "statement": "When the strategy proposes terminate and no evaluation was killed or cancelled, exactly max_evals evaluations have completed; moreover killed or cancelled evaluations do not consume budget, so also with aborted evaluations the run ends with max_evals completed evaluations.", "quantifier": "all schedules", "why_tests_cant": "needs all placements of an abort relative to the moment the budget is reached", "anchors": ["pySOT/strategy/surrogate_strategy.py: propose_action, check_termination, on_initial_aborted, on_adapt_aborted"]}
{"id": "C04", "title": "X, fX and fevals are the faithful history", "statement": "At every moment X/fX hold, in order, first the extra points with known values and then exactly the completed evaluations in completion order, each once and each with its own value; fevals holds exactly the finished (completed, killed, cancelled) records in finishing order; num_evals is the number of completions; nothing is ever removed or reordered, including across restarts.", "quantifier": "all schedules", "why_tests_cant": "pairing and exactly-once over arbitrary histories", "anchors": ["pySOT/strategy/surrogate_strategy.py: on_initial_completed, on_adapt_completed, on_initial_aborted, on_adapt_aborted, sample_initial"]}
{"id": "C05", "title": "Pending bookkeeping is exact", "statement": "pending_evals always equals the number of outstanding proposals plus running evaluations, and Xpend always lists exactly the points of those outstanding evaluations.", "quantifier": "all schedules and all point values, including repeated points", "why_tests_cant": "needs interleavings with equal points that random tests do not hit", "anchors": ["pySOT/strategy/surrogate_strategy.py: make_proposal, remove_pending, on_*"]}
{"id": "C06", "title": "A restart forgets the old run", "statement": "Right after a restart the surrogate, the current-run data and the convergence flag are reset; from then on the surrogate and the current-run data never receive an evaluation that was started before the restart, even if it finishes afterwards, while X/fX still record it.", "quantifier": "all schedules with any number of restarts and stragglers", "why_tests_cant": "stragglers from an old run arriving at arbitrary later times", "anchors": ["pySOT/strategy/surrogate_strategy.py: sample_restart, get_ev, on_*_completed"]}
{"id": "C07", "title": "The surrogate sees every evaluation of the current run", "statement": "Every evaluation started since the last restart (or since the beginning) is added to the surrogate when it completes, so the model is built from all data of the current run.", "quantifier": "all schedules, all strategies", "why_tests_cant": "requires adversarial completion orders in asynchronous mode", "anchors": ["pySOT/strategy/surrogate_strategy.py: on_initial_completed, on_adapt_completed", "pySOT/strategy/srbf_strategy.py: adjust_step"]}
{"id": "C08", "title": "Initial design points are not lost", "statement": "Every point of the initial design (and every extra point without a value) is eventually evaluated successfully: a rejected proposal or an aborted evaluation puts the point back in the queue, so at any time each design point is queued, outstanding or evaluated.", "quantifier": "all schedules of rejects and aborts", "why_tests_cant": "needs rejects/aborts at every position", "anchors": ["pySOT/strategy/surrogate_strategy.py: on_initial_rejected, on_initial_aborted, on_adapt_aborted, on_adapt_reject"]}
{"id": "C09", "title": "Synchronous batches are barriers", "statement": "With asynchronous=False the strategy asks for new points only when the queue is empty and nothing is outstanding, it asks for exactly batch_size points, and rejected proposals of a batch are queued again.", "quantifier": "all schedules in synchronous mode", "why_tests_cant": "interleavings of completions inside a batch", "anchors": ["pySOT/strategy/surrogate_strategy.py: propose_action, on_adapt_reject"]}
{"id": "C10", "title": "Asynchronous mode never idles a free worker", "statement": "With asynchronous=True and restarts enabled, as long as the stopping criterion is not reached every call of propose_action returns an evaluation to run, no matter how many evaluations are outstanding.", "quantifier": "all reachable states", "why_tests_cant": "needs all states", "anchors": ["pySOT/strategy/surrogate_strategy.py: propose_action"]}
{"id": "C11", "title": "The strategy never stalls", "statement": "Whenever nothing is outstanding, propose_action returns an evaluation or terminate, so a controller can always make progress; in particular a run in which the strategy has converged still terminates.", "quantifier": "all reachable states, both values of use_restarts and asynchronous", "why_tests_cant": "liveness over all histories; the default tests never converge with restarts disabled", "anchors": ["pySOT/strategy/surrogate_strategy.py: propose_action, adapt_proposal", "pySOT/strategy/ei_strategy.py: generate_evals"]}
{"id": "C12", "title": "Serial runs finish", "statement": "Driven by a serial controller whose objective always returns, a strategy with restarts enabled performs exactly max_evals evaluations and then proposes terminate.", "quantifier": "all objectives, all random draws, all budgets, synchronous and asynchronous", "why_tests_cant": "termination for all inputs", "anchors": ["pySOT/strategy/surrogate_strategy.py: propose_action and callbacks"]}
{"id": "C13", "title": "Every proposed point is feasible", "statement": "Every point the strategy asks to evaluate satisfies lb <= x <= ub componentwise and is integral in the integer variables, in the initial design, in extra points that are feasible, in the adaptive phase, when re-queued, after restarts and after resume.", "quantifier": "all histories, all random draws", "why_tests_cant": "tests sample a few random seeds", "anchors": ["pySOT/strategy/surrogate_strategy.py", "pySOT/utils.py: round_vars, from_unit_box", "pySOT/auxiliary_problems"]}
{"id": "C14", "title": "Checkpoint file is replaced atomically", "statement": "If the process dies at any instant while a checkpoint is being written, the checkpoint file still contains a complete snapshot: the previous one or the new one, never a truncated or mixed file; other files are not touched.", "quantifier": "all crash points, all previous file system contents, all snapshot sizes", "why_tests_cant": "a crash at each point of the write cannot be enumerated by a test", "anchors": ["pySOT/strategy/surrogate_strategy.py: save"]}
{"id": "C15", "title": "Resume restores a consistent strategy", "statement": "After CheckpointController.resume the strategy has no pending evaluation, Xpend is empty, all evaluations completed at the time of the snapshot are kept with their values exactly once, counters equal those of the snapshot, and the controller's record list equals the finished records of the snapshot.", "quantifier": "all snapshots of reachable states", "why_tests_cant": "all crash points", "anchors": ["pySOT/strategy/surrogate_strategy.py: resume", "pySOT/controller/controller.py: resume"]}
{"id": "C16", "title": "Resume re-queues interrupted initial points", "statement": "If the run is killed while initial design points are being evaluated, resuming queues these points again so the whole design is evaluated.", "quantifier": "all snapshots taken while initial points are outstanding", "why_tests_cant": "depends on the phase flag at the crash point", "anchors": ["pySOT/strategy/surrogate_strategy.py: resume"]}
{"id": "C17", "title": "A resumed run still uses the whole budget", "statement": "A run killed at an arbitrary point and resumed from its last checkpoint goes on until max_evals evaluations have been completed in total.", "quantifier": "all crash points and snapshots", "why_tests_cant": "depends on flags stored in the snapshot at the crash point", "anchors": ["pySOT/strategy/surrogate_strategy.py: resume, check_termination", "pySOT/controller/controller.py"]}
{"id": "C18", "title": "Checkpoint files are never silently overwritten or missing", "statement": "CheckpointController.run raises IOError and starts nothing if the checkpoint file exists; resume raises IOError if it does not; a snapshot is written after every completed, killed or cancelled evaluation and at termination, under exactly the requested file name.", "quantifier": "all file names and file system states", "why_tests_cant": "all file names including ones with directories", "anchors": ["pySOT/controller/controller.py: run, resume, on_update", "pySOT/strategy/surrogate_strategy.py: save"]}
{"id": "C19", "title": "SRBF/DYCORS sampling radius stays in its range", "statement": "At every moment of a run the sampling radius is 0.2 * 2^-k with 0 <= k <= 6: it never exceeds 0.2, is only halved or doubled, is 0.2 at the start of each run, and reaching the minimum 0.2/64 flags convergence.", "quantifier": "all objective values and schedules", "why_tests_cant": "all value sequences", "anchors": ["pySOT/strategy/srbf_strategy.py: adjust_step, sample_initial"]}
{"id": "C20", "title": "SRBF/DYCORS success/failure rule", "statement": "The radius is doubled (capped at 0.2) exactly after succtol=3 consecutive improving steps, halved exactly after failtol consecutive non-improving steps; any run of maxfailtol=4*failtol consecutive non-improving steps makes the strategy converge, and convergence is flagged only by that or by the minimum radius.", "quantifier": "all sequences of objective values", "why_tests_cant": "all value sequences", "anchors": ["pySOT/strategy/srbf_strategy.py: adjust_step"]}
{"id": "C21", "title": "Improvement is measured against the current run", "statement": "A step counts as improving exactly if its best value improves the best value of the current run (initial design included) by more than 0.1 percent in absolute value.", "quantifier": "all value sequences", "why_tests_cant": "relation to all previous values", "anchors": ["pySOT/strategy/srbf_strategy.py: adjust_step, on_adapt_completed"]}
{"id": "C22", "title": "Weights are cycled in order", "statement": "The i-th adaptive point of an SRBF/DYCORS strategy is selected with weight weights[i mod len(weights)], across batches, batch sizes and restarts.", "quantifier": "all weight lists and sequences of batch sizes", "why_tests_cant": "unbounded histories", "anchors": ["pySOT/strategy/srbf_strategy.py: get_weights"]}
{"id": "C23", "title": "DYCORS perturbation probability is a probability", "statement": "The coordinate perturbation probability used by DYCORS and SOP always lies in [1/dim, 1] and does not increase as evaluations accumulate.", "quantifier": "all dims, budgets, design sizes and evaluation counts of the adaptive phase", "why_tests_cant": "real-valued function of unbounded integers", "anchors": ["pySOT/strategy/dycors_strategy.py: generate_evals", "pySOT/strategy/sop_strategy.py: generate_evals"]}
{"id": "C24", "title": "nd_front returns exactly the non-dominated points", "statement": "For every M x N array nd_front(F) returns two duplicate-free index lists that partition 0..N-1; an index is in the first list iff no column of F is strictly smaller in all objectives.", "quantifier": "all arrays, including ties", "why_tests_cant": "all inputs; list is mutated while traversed", "anchors": ["pySOT/utils.py: domination, nd_add, nd_front"]}
{"id": "C25", "title": "nd_sorting ranks are the Pareto layers", "statement": "nd_sorting(F, nmax) terminates; rank 1 is exactly the non-dominated set; a point of finite rank r>1 is dominated by some point of rank r-1 and by no point of equal or larger rank; at least min(nmax, N) points get a finite rank and unranked points come after all ranked layers.", "quantifier": "all arrays and all nmax", "why_tests_cant": "all inputs", "anchors": ["pySOT/utils.py: nd_sorting"]}
{"id": "C26", "title": "Radius rule", "statement": "check_radius_rule returns 1 exactly if the point is at distance at least d_thresh*sigma*2^-nfail/sqrt(dim) from each of the first nc centers, and 0 otherwise.", "quantifier": "all points, centers, thresholds", "why_tests_cant": "all inputs", "anchors": ["pySOT/utils.py: check_radius_rule"]}
{"id": "C27", "title": "SOP archive and center indices are consistent", "statement": "In every state of an SOP run the archive has exactly one entry per completed evaluation in order, with its point and value; each center refers to an existing archive entry with the same point; after update there are exactly ncenters centers.", "quantifier": "all schedules", "why_tests_cant": "index arithmetic over histories", "anchors": ["pySOT/strategy/sop_strategy.py: on_initial_completed, on_adapt_completed, update_center_list"]}
{"id": "C28", "title": "SOP failure/tabu memory", "statement": "Each archive entry has 0 <= nfail <= 4 and 0 <= ntabu <= 5; its sampling radius is 0.2*2^-nfail; an entry that fails 4 times becomes tabu with its radius reset and leaves the tabu list after its tenure. The i-th new point of a batch is what the search returned around the point of an archive entry (its center), with that entry's radius; distinct points come from distinct centers.", "quantifier": "all schedules and ranks", "why_tests_cant": "histories of unbounded length", "anchors": ["pySOT/strategy/sop_strategy.py: _SopRecord, adjust_memory"]}
{"id": "C29", "title": "SOP center selection order", "statement": "New centers are chosen by going through all evaluated points ordered by tabu status, then rank, then value, except that the best point is moved to the front unless it is being processed; a point is taken iff it satisfies the radius rule with respect to the centers chosen before it; if points run out the chosen ones are repeated cyclically; the loop terminates.", "quantifier": "all archives", "why_tests_cant": "all inputs; loops with data dependent termination", "anchors": ["pySOT/strategy/sop_strategy.py: update_center_list"]}
{"id": "C30", "title": "SOP centers are chosen by Pareto rank", "statement": "At every adaptive step SOP selects centers using the current non-dominated ranks of all evaluated points.", "quantifier": "all steps of a run", "why_tests_cant": "the ranks are internal and overwritten later", "anchors": ["pySOT/strategy/sop_strategy.py: adjust_memory, update_F, update_ranks"]}
{"id": "C31", "title": "SOP never fails on a legal schedule", "statement": "An SOP strategy with any legal ncenters >= batch_size (synchronous) or any number of workers (asynchronous) never raises, whatever evaluations are rejected or aborted and after resuming from a checkpoint.", "quantifier": "all schedules and configurations accepted by the constructor", "why_tests_cant": "exceptional schedules", "anchors": ["pySOT/strategy/sop_strategy.py: generate_evals, adjust_memory, check_input"]}
{"id": "C32", "title": "Weighted-distance merit picks the best admissible candidate", "statement": "weighted_distance_merit returns num_pts rows of cand; each pick minimises w*s + (1-w)*(1-d) among the candidates at distance at least dtol from all evaluated, pending and previously picked points, if there is one; hence picks are at distance >= dtol from all of those whenever an admissible candidate exists.", "quantifier": "all candidate sets, predictions, weights, tolerances", "why_tests_cant": "all inputs", "anchors": ["pySOT/auxiliary_problems/candidate_srbf.py: weighted_distance_merit"]}
{"id": "C33", "title": "Candidate points stay in the domain", "statement": "candidate_srbf, candidate_dycors and candidate_uniform return points inside the bounds with integral integer variables that agree with the best point (or the given center) in every coordinate outside subset.", "quantifier": "all random draws, subsets and problems", "why_tests_cant": "all random draws", "anchors": ["pySOT/auxiliary_problems/candidate_srbf.py", "pySOT/auxiliary_problems/candidate_dycors.py", "pySOT/auxiliary_problems/candidate_uniform.py"]}
{"id": "C34", "title": "DYCORS always perturbs something and can perturb anything", "statement": "For every draw each DYCORS candidate has at least one selected coordinate, and every coordinate of subset can be the one that is forced.", "quantifier": "all random draws, dims, subsets", "why_tests_cant": "probability-zero events are never sampled by tests", "anchors": ["pySOT/auxiliary_problems/candidate_dycors.py"]}
{"id": "C35", "title": "The genetic algorithm is elitist and feasible", "statement": "GeneticAlgorithm.optimize returns a point inside the bounds, integral in the integer variables, together with its function value, and that value is not larger than the value of any individual evaluated in any generation. The built-in start population is feasible even if bounds of integer variables are fractional, as long as there is an integer between them, and differs from the drawn one by at most 1 in integer variables only.", "quantifier": "all functions, random draws, population sizes, numbers of generations", "why_tests_cant": "all draws and all functions", "anchors": ["pySOT/utils.py: GeneticAlgorithm.optimize"]}
{"id": "C36", "title": "The genetic algorithm accepts feasible start populations", "statement": "A user supplied start population of the right shape is accepted iff it lies inside the bounds.", "quantifier": "all populations", "why_tests_cant": "all inputs", "anchors": ["pySOT/utils.py: GeneticAlgorithm.optimize"]}
{"id": "C37", "title": "EI/LCB batches are spread out and good enough", "statement": "ei_ga (with ei_tol > 0) and lcb_ga (with a finite target) return either None or num_pts points that are pairwise and from all evaluated and pending points at distance >= dtol, and whose EI is >= ei_tol (LCB <= target) with respect to all points before them.", "quantifier": "all surrogates, random draws, batch sizes", "why_tests_cant": "all draws", "anchors": ["pySOT/auxiliary_problems/ei_ga.py", "pySOT/auxiliary_problems/lcb_ga.py", "pySOT/auxiliary_problems/ei_merit.py", "pySOT/auxiliary_problems/lcb_merit.py"]}
{"id": "C38", "title": "Unit box maps are mutually inverse", "statement": "to_unit_box and from_unit_box are inverse to each other, map the box [lb, ub] onto the unit box and vice versa and are strictly increasing in each coordinate.", "quantifier": "all points and bounds with lb < ub", "why_tests_cant": "all reals", "anchors": ["pySOT/utils.py: to_unit_box, from_unit_box"]}
{"id": "C39", "title": "Mapped designs respect the bounds in floating point", "statement": "from_unit_box maps points of [0,1] into [lb, ub] also with IEEE double arithmetic.", "quantifier": "all doubles", "why_tests_cant": "rounding errors on specific bounds", "anchors": ["pySOT/utils.py: from_unit_box"]}
{"id": "C40", "title": "unit_rescale", "statement": "unit_rescale maps a non-constant array to [0,1], its minimum to 0 and maximum to 1, preserves order and equality, and maps a constant array to ones; also in floating point the result stays in [0,1].", "quantifier": "all arrays", "why_tests_cant": "all inputs and rounding", "anchors": ["pySOT/utils.py: unit_rescale"]}
{"id": "C41", "title": "round_vars returns the closest feasible integer", "statement": "round_vars leaves continuous variables untouched; an integer variable becomes an integer of the domain closest to the input (for integral bounds), always lies within the bounds, and applying it twice changes nothing.", "quantifier": "all points, bounds, index sets", "why_tests_cant": "ties and bounds", "anchors": ["pySOT/utils.py: round_vars"]}
{"id": "C42", "title": "Symmetric Latin hypercube", "statement": "For every draw, in every column of the generated unit design each of the num_pts levels k/(num_pts-1) occurs exactly once and the design is symmetric about the center of the cube.", "quantifier": "all num_pts >= 2, dims, random draws", "why_tests_cant": "all random draws and sizes, odd and even", "anchors": ["pySOT/experimental_design/slhd.py: _slhd"]}
{"id": "C43", "title": "Two-factorial design", "statement": "TwoFactorial(dim) returns each of the 2^dim corners exactly once, mapped to corners of [lb, ub], and refuses dim >= 15.", "quantifier": "all dims and bounds", "why_tests_cant": "all dims", "anchors": ["pySOT/experimental_design/two_factorial.py"]}
{"id": "C44", "title": "The best valid design is chosen", "statement": "LatinHypercube/SymmetricLatinHypercube.generate_points returns one of the generated designs, mapped and rounded, with full column rank and positive minimum pairwise distance, that is not worse than any other full-rank generated design; it raises iff there is none.", "quantifier": "all sequences of generated designs", "why_tests_cant": "all random draws", "anchors": ["pySOT/experimental_design/experimental_design.py: _expdes_dist"]}
{"id": "C45", "title": "Surrogates contain exactly what was added", "statement": "After reset and any sequence of add_points calls, X and fX are the concatenation of the added points and values in order and num_pts is their number; the result does not depend on how the points were grouped; predict always reflects all points added since the last reset and refits only if something changed.", "quantifier": "all call sequences", "why_tests_cant": "all histories", "anchors": ["pySOT/surrogate/surrogate.py", "pySOT/surrogate/rbf.py: _fit, reset", "pySOT/surrogate/poly.py", "pySOT/surrogate/gp.py"]}
{"id": "C46", "title": "Incremental RBF fit equals a fit from scratch", "statement": "The coefficients obtained by extending the LU factorisation solve the same interpolation system as a fit from scratch on all points; hence predictions do not depend on how points were added.", "quantifier": "all data sets, all splittings into batches", "why_tests_cant": "all inputs; algebraic identity", "anchors": ["pySOT/surrogate/rbf.py: _fit"]}
{"id": "C47", "title": "RBF interpolation", "statement": "The RBF predictor satisfies s(x_i) = f_i - eta*c_i at the data (exact interpolation for eta = 0), its coefficients are orthogonal to the polynomial tail, and if the data come from a polynomial of the tail space and the system is nonsingular the predictor is that polynomial everywhere.", "quantifier": "all data sets, kernels, tails", "why_tests_cant": "all inputs", "anchors": ["pySOT/surrogate/rbf.py: _fit, predict"]}
{"id": "C48", "title": "predict_deriv is the gradient of predict", "statement": "RBFInterpolant.predict_deriv returns the gradient, in the original coordinates, of the function computed by predict.", "quantifier": "all data, all points at a unit-box distance of at least 2^-52 (the floating-point epsilon, below which the code clips distances) from every data point, and the data points themselves for the cubic and thin-plate kernels", "why_tests_cant": "finite differences only sample", "anchors": ["pySOT/surrogate/rbf.py: predict_deriv", "pySOT/surrogate/kernels", "pySOT/surrogate/tails"]}
{"id": "C49", "title": "Median capping", "statement": "median_capping replaces exactly the values above the median by the median, leaves the others, keeps order and the minimum, and does not modify its argument.", "quantifier": "all arrays, odd and even length", "why_tests_cant": "all inputs", "anchors": ["pySOT/surrogate/output_transformations/median_capping.py"]}
{"id": "C50", "title": "RBF kernel/tail choice", "statement": "RBFInterpolant accepts exactly the kernel/tail pairs whose tail degree is at least the kernel order minus one and uses the kernel and tail the user passed.", "quantifier": "all combinations", "why_tests_cant": "includes the combinations with one argument omitted", "anchors": ["pySOT/surrogate/rbf.py: __init__"]}
{"id": "C51", "title": "Benchmark problems: declared minimum is a global lower bound", "statement": "For each benchmark problem with a declared minimum, eval at the declared minimizer equals the declared minimum (to 1e-3) and no point of the domain has a value smaller than the declared minimum (to 1e-3).", "quantifier": "all dimensions and all points of the domain", "why_tests_cant": "continuum of points", "anchors": ["pySOT/optimization_problems"]}
{"id": "C52", "title": "Benchmark problems: declared minimizer is feasible", "statement": "The declared minimizer of each benchmark problem lies in its domain [lb, ub].", "quantifier": "all problems and dims", "why_tests_cant": "not covered by the existing tests", "anchors": ["pySOT/optimization_problems"]}
{"id": "C53", "title": "check_opt_prob accepts exactly well-formed problems", "statement": "check_opt_prob accepts a problem iff the bounds have length dim with lb < ub and cont_var/int_var partition 0..dim-1.", "quantifier": "all problems", "why_tests_cant": "all inputs", "anchors": ["pySOT/utils.py: check_opt_prob"]}
{"id": "C54", "title": "Constructor argument validation", "statement": "Strategies reject max_evals that is not a positive integer at least exp_design.num_pts; SOP rejects ncenters that is not an integer greater than 3; synchronous mode requires batch_size; SRBF and DYCORS reject weights outside [0, 1]; EI and LCB reject surrogates that are not a GPRegressor.", "quantifier": "all argument values", "why_tests_cant": "all inputs", "anchors": ["pySOT/strategy/surrogate_strategy.py: check_input", "pySOT/strategy/sop_strategy.py: check_input", "pySOT/strategy/random_strategy.py: __init__", "pySOT/strategy/srbf_strategy.py: check_input"]}
{"id": "C55", "title": "RandomStrategy", "statement": "RandomStrategy evaluates exactly max_evals points of the box, retrying rejected or killed evaluations, and proposes terminate exactly when all have completed.", "quantifier": "all schedules", "why_tests_cant": "all schedules", "anchors": ["pySOT/strategy/random_strategy.py"]}
{"id": "C56", "title": "Extra points", "statement": "Extra points with unknown value (nan or inf) are evaluated as part of the first initial design; extra points with a known value are recorded and given to the surrogate without being evaluated and without consuming budget; restarts do not evaluate them again.", "quantifier": "all extra point lists", "why_tests_cant": "mixed known/unknown lists and restarts", "anchors": ["pySOT/strategy/surrogate_strategy.py: sample_initial"]}
{"id": "C57", "title": "Best known point is the search center", "statement": "SRBF and DYCORS center their candidates at the best point known in the current run, including extra points with known values.", "quantifier": "all histories", "why_tests_cant": "all histories", "anchors": ["pySOT/strategy/srbf_strategy.py: generate_evals", "pySOT/auxiliary_problems/candidate_srbf.py"]}
{"id": "C58", "title": "Counters of accepted and rejected proposals", "statement": "At every moment accepted_count and rejected_count are the numbers of proposals that the controller has accepted and rejected, across restarts and resumes.", "quantifier": "all histories", "why_tests_cant": "all histories", "anchors": ["pySOT/strategy/surrogate_strategy.py: on_initial_accepted, on_initial_rejected, on_adapt_accept, on_adapt_reject"]}
{"id": "C59", "title": "RBF prediction succeeds exactly for data in general position", "statement": "With the default kernel, tail and regularisation (cubic, linear, 1e-6), predict and predict_deriv return a value if and only if no hyperplane contains all data points, whatever the values, also with repeated points, and in any order of add_points, predict and reset calls whose predictions were made with too few points or with points in general position.  The same holds for the thin plate spline as long as eta exceeds 52 n / 2^104.", "quantifier": "all dimensions, data sets, values and call orders", "why_tests_cant": "continuum of data sets; the interpolation matrix is indefinite, so this is a theorem (conditional positive definiteness) and not a computation", "anchors": ["pySOT/surrogate/rbf.py: _fit, predict, predict_deriv", "pySOT/surrogate/kernels/cubic_kernel.py: eval", "pySOT/surrogate/kernels/tps_kernel.py: eval"]}
{"id": "C60", "title": "RBF with the linear kernel", "statement": "RBFInterpolant with LinearKernel and ConstantTail and the default eta predicts for every nonempty set of distinct points.", "quantifier": "all data sets", "why_tests_cant": "fails on a measure-zero set of inputs", "anchors": ["pySOT/surrogate/rbf.py: _fit", "pySOT/surrogate/kernels/linear_kernel.py: eval"]}
{"id": "C61", "title": "SRBF and DYCORS with the default RBF surrogate never raise", "statement": "A strategy (SRBFStrategy or DYCORSStrategy) with the default RBFInterpolant surrogate, experimental designs whose points lie in the domain and not all on one hyperplane, and an objective with finite values never raises from propose_action or from a callback, under any schedule of a controller; a serial controller therefore evaluates exactly max_evals points and stops.", "quantifier": "all dimensions, domains, designs, objective values, random draws, schedules, batch sizes, crash points", "why_tests_cant": "needs the solvability of every interpolation system that can come up in a run, for a continuum of data sets and all schedules", "anchors": ["pySOT/strategy/srbf_strategy.py: generate_evals, on_adapt_completed", "pySOT/strategy/dycors_strategy.py", "pySOT/surrogate/rbf.py", "pySOT/strategy/surrogate_strategy.py: propose_action, resume", "pySOT/auxiliary_problems/candidate_srbf.py", "pySOT/auxiliary_problems/candidate_dycors.py"]}
{"id": "C62", "title": "ei_merit is the expected improvement", "statement": "Where predict_std is positive, ei_merit(X, surrogate, fX) without distance tolerance is the expectation of max(min(fX) - Y, 0) for Y normal with mean predict(x) and standard deviation predict_std(x); with dtol > 0 it is that number at points at distance at least dtol of all given points and 0 at the others, so it is positive exactly there. It lies strictly above max(min(fX) - predict(x), 0), by at most predict_std(x)/sqrt(2 pi), it increases when the prediction decreases, its standard deviation increases, or the incumbent gets worse. lcb_merit is the quantile of level cdf(-kappa) of Y.", "quantifier": "all means, standard deviations > 0, incumbents, points, tolerances", "why_tests_cant": "an identity between an improper integral and a closed formula for a continuum of arguments", "anchors": ["pySOT/auxiliary_problems/ei_merit.py: ei_merit", "pySOT/auxiliary_problems/lcb_merit.py: lcb_merit"]}
{"id": "C63", "title": "GPRegressor standardises: values with mean 0 and deviation 1, and predictions follow affine changes of the objective", "statement": "For every non-empty data set GPRegressor divides by a positive number; the values given to the regressor have mean 0, standard deviation at most 1 and exactly 1 when the spread is at least 1e-6, and the same order as the data; multiplying back gives the data. If all values are changed by v -> a v + b with a > 0 and the spread is at least 1e-6 before and after, predict changes by v -> a v + b and predict_std by the factor a, whatever calls built the data set. (Below the threshold predict_std does not follow the scale: refuted with an example.)", "quantifier": "all data sets, all histories of add_points/reset/predict, all points, all scikit-learn regressors", "why_tests_cant": "the data sets, scales and histories are infinite; tests fix one kernel and a few values", "anchors": ["pySOT/surrogate/gp.py: _fit, predict, predict_std", "pySOT/surrogate/surrogate.py: add_points, reset"]}
{"id": "C64", "title": "Surrogates do not depend on the units of the variables", "statement": "If the variables are expressed in other units (an increasing affine change of each coordinate, applied to the bounds, to all points added and to the queries), then after the same calls RBFInterpolant, PolyRegressor and GPRegressor predict the same values or raise the same exceptions, and the derivatives of RBFInterpolant are the same in the new units (chain rule).", "quantifier": "all boxes, all histories of calls, all queries, all kernels, tails, eta, output transformations", "why_tests_cant": "relates two histories for every box and unit; tests use one box per problem", "anchors": ["pySOT/surrogate/rbf.py: _fit, predict, predict_deriv", "pySOT/surrogate/surrogate.py: add_points", "pySOT/surrogate/poly.py", "pySOT/surrogate/gp.py", "pySOT/utils.py: to_unit_box"]}
{"id": "C65", "title": "RBF predictions do not depend on the order of the data and are equivariant in the values", "statement": "Two histories of add_points/predict/reset without failed call that stored the same data in different orders give the same predictions (for identity and median capping); v -> a v + b (a > 0) applied to all values applies the same change to the predictions (idem); without output transformation predictions are linear in the values. With a linear tail and points in general position no failure can occur and the second statement needs no hypothesis on failures.", "quantifier": "all pairs of histories, permutations, scales and queries", "why_tests_cant": "relates pairs of histories of unbounded length (different incremental factorisations)", "anchors": ["pySOT/surrogate/rbf.py: _fit, predict", "pySOT/surrogate/output_transformations/median_capping.py", "pySOT/surrogate/output_transformations/identity.py"]}
{"id": "C66", "title": "Runs do not depend on the unit of the objective", "statement": "If the objective f is replaced by a*f (a > 0; in other units) the run of SRBF and DYCORS with the default RBF surrogate is the same call by call: same proposals, decisions, restarts, exceptions and records, with all values multiplied by a. For EI and LCB the same holds for a*f + b when the tolerance is scaled too and the surrogate follows the change, which GPRegressor does while the spread of the values is at least 1e-6 before and after. SOP only compares values, so it holds for every increasing change of f if the searches return the same points, and for a*f + b with the candidate search on the default RBF. Adding a constant does change runs of SRBF and DYCORS (refuted with an example), because an improvement counts only if it is more than 0.1% of |fbest|.", "quantifier": "all scales a (and shifts b), all configurations, all schedules with crashes and resumes, all random draws", "why_tests_cant": "relates pairs of whole runs for every scale; tests run each problem in one unit", "anchors": ["pySOT/strategy/srbf_strategy.py", "pySOT/strategy/dycors_strategy.py", "pySOT/strategy/ei_strategy.py", "pySOT/strategy/lcb_strategy.py", "pySOT/strategy/sop_strategy.py", "pySOT/strategy/surrogate_strategy.py", "pySOT/auxiliary_problems/candidate_srbf.py", "pySOT/auxiliary_problems/candidate_dycors.py", "pySOT/surrogate/rbf.py", "pySOT/surrogate/gp.py", "pySOT/utils.py: unit_rescale"]}
{"id": "C67", "title": "Synchronous runs do not depend on the order in which a batch completes", "statement": "With asynchronous=False, the same seed and a deterministic objective that never fails, two controllers that poll propose_action at different times and complete the evaluations of a batch in different orders see the same points proposed in the same order (one run may have got further), and evaluate the same points with the same results when both have as many completed evaluations and nothing running, in particular when both have terminated. For EI and LCB this holds without condition on the objective; for SRBF and DYCORS it holds when different evaluated points have different values: with equal values the first completed one is the center of the search, so the next proposal depends on the completion order (refuted with an example).", "quantifier": "all configurations, all objectives, all designs and random draws, all pairs of schedules of polling, accepting and completing", "why_tests_cant": "relates pairs of whole runs under every interleaving; a test sees one interleaving", "anchors": ["pySOT/strategy/surrogate_strategy.py: propose_action, on_initial_completed, on_adapt_completed, sample_adapt, sample_initial", "pySOT/strategy/srbf_strategy.py", "pySOT/strategy/dycors_strategy.py", "pySOT/strategy/ei_strategy.py", "pySOT/strategy/lcb_strategy.py", "pySOT/auxiliary_problems/candidate_srbf.py", "pySOT/auxiliary_problems/candidate_dycors.py", "pySOT/auxiliary_problems/ei_ga.py", "pySOT/auxiliary_problems/lcb_ga.py", "pySOT/surrogate/rbf.py"]}
{"id": "C68", "title": "Resuming from a checkpoint is the same as killing the running evaluations", "statement": "A run that is resumed from a snapshot continues, for every later schedule and every random draw, exactly like the original run in which the controller killed all evaluations that were running at the snapshot: the same answers to all calls and the same attributes, except the list of finished records. So a serial run with any number of crashes has the same proposals and results as a run without crashes in which some evaluations were killed. If the snapshot is written after the strategy has processed an evaluation, no finished evaluation is ever lost. Refuted for snapshots of the adaptive phase in which a point of the design is still running (killing it queues it again, resuming drops it), and if the checkpoint callback runs before the callback of the strategy (the evaluation that has just finished is not in the snapshot).", "quantifier": "all strategies, configurations, reachable snapshots, numbers of crashes, schedules and random draws", "why_tests_cant": "equality of two whole continuations for every snapshot and schedule", "anchors": ["pySOT/controller/controller.py: CheckpointController (docstring, _save, resume, on_update)", "pySOT/strategy/surrogate_strategy.py: resume, on_initial_aborted, on_adapt_aborted, on_initial_update, on_adapt_update"]}
{"id": "C69", "title": "What SRBF, DYCORS and SOP propose, in terms of the history of the run", "statement": "Every batch that a call of propose_action generates in SRBF or DYCORS consists of candidates chosen one after the other by their merit: the candidates are the given normal draws around the first best evaluation of the current run, with the current radius times the sides of the box as deviations, cut off at the bounds and rounded for integer variables (all coordinates in SRBF, the randomly selected ones and at least one in DYCORS); the merit uses the predictions of a surrogate fitted to exactly the known extra points and the evaluations of the current run, the distances to the evaluated points, the running evaluations and the points already chosen, and the weights used in turn from call to call. A batch has batch_size points (one in asynchronous mode). In SOP the i-th point of a batch is the candidate with the lowest prediction around an evaluated point with the radius of its archive entry, away from the evaluated and running points.", "quantifier": "all problems, configurations, schedules, histories without duplicate points, random draws and surrogate predictions", "why_tests_cant": "it ties every proposal of every run to its whole history", "anchors": ["pySOT/strategy/srbf_strategy.py: generate_evals", "pySOT/strategy/dycors_strategy.py: generate_evals", "pySOT/strategy/sop_strategy.py: generate_evals", "pySOT/auxiliary_problems/candidate_srbf.py", "pySOT/auxiliary_problems/candidate_dycors.py", "pySOT/strategy/surrogate_strategy.py: propose_action"]}
{"id": "C70", "title": "The MARS surrogate predicts with its model of the data and differentiates it", "statement": "For every history of reset, add_points, predict and predict_deriv, MARSInterpolant.predict is the linear combination of products of hinge functions that was fitted to exactly the (transformed) data added since the last reset, mapped to the unit box; it is continuous along every line; and predict_deriv returns the gradient of predict, in the coordinates of the user, as one row per point. Refuted: predict_deriv only looks at the first point, and with the array that py-earth returns (points x variables x outputs) it returns a square matrix whose diagonal is the gradient.", "quantifier": "all histories of calls, models learned by py-earth, boxes, points not at a knot", "why_tests_cant": "it must hold for every history and every fitted model; MARS is not even installed in the test environment", "anchors": ["pySOT/surrogate/mars.py: MARSInterpolant (_fit, predict, predict_deriv)", "pySOT/surrogate/surrogate.py: Surrogate"]}
{"id": "C71", "title": "Optimization runs do not depend on the origin and the unit of length of the variables", "statement": "If the bounds, the experimental designs and the extra points of a problem are moved by a vector and multiplied by a positive number (the same for all variables), then with the same random numbers, objective values and controller decisions the strategies take the same decisions at the same times and every proposed point is the image of the original one. Refuted for the unit of length: SRBF, DYCORS and SOP keep a fixed minimum distance of 0.001*sqrt(dim) between points that does not scale with the box; in a box with a diameter below it the surrogate and the weights are ignored and every batch consists of copies of one point.", "quantifier": "all boxes, designs, random numbers, objective values, schedules, crashes and resumes; problems without integer variables", "why_tests_cant": "it relates two infinite families of runs; tests use one box", "anchors": ["pySOT/strategy/srbf_strategy.py: SRBFStrategy.__init__ (dtol), generate_evals", "pySOT/strategy/dycors_strategy.py: DYCORSStrategy.generate_evals", "pySOT/auxiliary_problems/candidate_srbf.py: candidate_srbf", "pySOT/auxiliary_problems/candidate_dycors.py: candidate_dycors", "pySOT/auxiliary_problems/merit.py: weighted_distance_merit", "pySOT/surrogate/rbf.py: RBFInterpolant"]}
{"id": "C72", "title": "No part of the domain is excluded from the search", "statement": "Whatever the state of an SRBF, DYCORS or SOP run (evaluations, failures, radius, pending points, crashes), when the next request generates points then for every feasible point y and every eps > 0 there are random draws, filling a box of positive size, for which every generated point lies within eps of y in every coordinate and equals y in the integer variables.", "quantifier": "all boxes, integer sets, designs, histories, schedules, crashes, resumes, radii, points y and eps > 0", "why_tests_cant": "it is a statement about the existence of draws in every reachable state and for every target point; a test sees one sequence of draws", "anchors": ["pySOT/strategy/srbf_strategy.py: SRBFStrategy.generate_evals", "pySOT/strategy/dycors_strategy.py: DYCORSStrategy.generate_evals", "pySOT/strategy/sop_strategy.py: SOPStrategy.generate_evals", "pySOT/auxiliary_problems/candidate_srbf.py: candidate_srbf", "pySOT/auxiliary_problems/candidate_dycors.py: candidate_dycors", "pySOT/utils.py: round_vars"]}
{"id": "C73", "title": "A generation of the genetic algorithm consists of the best individual and of children of tournament winners", "statement": "In every generation of GeneticAlgorithm.optimize the population that is evaluated consists of the first best individual so far (row 0) and, in every other row, of a child: two parents, each with the lowest value among five drawn individuals, are averaged with a drawn weight or copied, mutated by a normal step of 0.2 times the width of the box in the drawn coordinates, clipped to the bounds and rounded in the integer variables. Refuted for integer variables: the row of the best individual keeps another position there, so that individual wins tournaments but another one becomes the parent.", "quantifier": "all boxes, integer sets, objective functions without nan, population sizes, numbers of generations and random draws", "why_tests_cant": "it quantifies over all draws, populations and generations; a test can only check that the result improves", "anchors": ["pySOT/utils.py: GeneticAlgorithm.optimize", "pySOT/utils.py: round_vars"]}
{"id": "C74", "title": "SOP with the default RBF surrogate does not raise", "statement": "With a legal box, RBFInterpolant (cubic kernel, linear tail), a design and extra points that determine the interpolant, finite values and no point queued twice, the constructor, propose_action and the completion of an evaluation of SOPStrategy do not raise: in synchronous mode (batches of ncenters points, every request decided before the next one, nothing killed or cancelled, no resume), and in asynchronous mode as long as, whenever points are generated, the design is evaluated and fewer than ncenters evaluations are under way. A serial controller evaluates exactly max_evals points and stops.", "quantifier": "all boxes, designs, extra points, objective values, random draws, schedules and run lengths that meet the conditions", "why_tests_cant": "it quantifies over all schedules, draws and values; a test runs one", "anchors": ["pySOT/strategy/sop_strategy.py: SOPStrategy", "pySOT/strategy/surrogate_strategy.py: SurrogateBaseStrategy.propose_action", "pySOT/auxiliary_problems/candidate_dycors.py: candidate_dycors", "pySOT/surrogate/rbf.py: RBFInterpolant.predict"]}
{"id": "C75", "title": "Candidate points in double arithmetic", "statement": "With the arithmetic numpy and scipy really do (IEEE doubles), every continuous coordinate of a candidate of SRBFStrategy and DYCORSStrategy (normal perturbation of the incumbent truncated to the box), of RandomStrategy and candidate_uniform (np.random.uniform), and of an individual mutated by the genetic algorithm (EIStrategy, LCBStrategy), lies between the lower and the upper bound; over a whole run rounding errors do not accumulate.", "quantifier": "all boxes of doubles, incumbents, sampling radii, draws of the generators and histories of proposals without overflow", "why_tests_cant": "the points at which rounding leaves the box are rare and depend on the last bits of the incumbent; tests with a tolerance or a few draws do not meet them", "anchors": ["pySOT/auxiliary_problems/candidate_srbf.py: candidate_srbf", "pySOT/auxiliary_problems/candidate_dycors.py: candidate_dycors", "pySOT/auxiliary_problems/candidate_uniform.py: candidate_uniform", "pySOT/strategy/random_strategy.py: RandomStrategy"]}
{"id": "C76", "title": "Progress plot", "statement": "progress_plot shows one point per completed evaluation of the controller, in the order of the controller, leaving out evaluations without a value; the line shows at every evaluation the best value completed so far; all points lie within the limits of the axis. It raises nothing, and without matplotlib it returns after printing a message.", "quantifier": "all lists of records, with values that are finite, infinite or missing", "why_tests_cant": "quantifies over all lists of records and the environment; the function is excluded from the test coverage", "anchors": ["pySOT/utils.py: progress_plot"]}
{"id": "C77", "title": "The run returns the best completed evaluation", "statement": "The record that CheckpointController.run or resume returns is a completed evaluation, with the point that was proposed and the value that was reported for it, and no evaluation completed since the start has a smaller value, including those before a restart of the strategy and before a crash and resumption; nothing is returned only if no evaluation was completed. The controller has exactly one record for every finished and every running evaluation. If the snapshot is written after the callback of the strategy, a crash followed by resume returns something at least as good as everything completed before the crash.", "quantifier": "all histories with rejections, killed evaluations, restarts, crashes and resumptions; all values that are comparable (no nan)", "why_tests_cant": "quantifies over all histories and crash points", "anchors": ["pySOT/controller/controller.py: run, resume", "pySOT/strategy/surrogate_strategy.py: fevals"]}
