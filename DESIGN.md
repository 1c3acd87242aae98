# Formal model of pySOT in Rocq (Coq 8.16.1)

(The first commit of this file was the plan; this version records what was built.)

## 1. Method

* Executable Gallina models, function by function; every definition carries a comment with the file and lines
  of /repo it models and the simplifications made.
* Exceptions are values (`res A := Ok a | Err e`, `Base.v`); loops are structural recursion or recursion on fuel
  with an explicit error value; Python lists/arrays are Coq lists (`PyList.v`), with index errors as error values.
* Randomness and external libraries are universally quantified arguments (oracles). What is assumed of an oracle
  is a hypothesis visible in the theorem, e.g. `truncnorm.rvs` returns a value between its truncation limits.
* `SurrogateBaseStrategy` is a labelled transition system. Operations of the environment: `propose_action`,
  accept / reject of a proposal, completion / kill / cancellation of an outstanding evaluation in any order, `save`, and
  crash + `resume`. Subclass methods (`generate_evals`, `adjust_step`, `check_convergence`, …) are a record of
  hooks; the base theorems hold for all hooks, and the SRBF, DYCORS, EI, LCB and SOP hooks are modelled separately.
* Specifications are about the ghost history (what the user sees: proposals, outcomes, completed values) and
  ordinary mathematics, and live in `StrategySpec.v`, `ProblemSpec.v` or at the head of the `Prop*.v` files, written
  without the helpers of the model.
* Property theorems live in the `Prop*.v`, `Ex*.v` files and a few thematic files; beside each there is an
  example `ex_…` (usually by computation) showing that its hypotheses are met by a concrete non-trivial case.
* Where the unchanged code violates a property, the theorem `…_refuted` gives a witness and the part that holds is
  proved as `…_partial` or under a visible hypothesis.

## 2. Trusted base

1. Coq's kernel (including `vm_compute`), and the axioms of the standard library listed in section 4.
2. The fidelity of the model to the cited source lines (the code was read, never run).
3. The stated contracts of external code (section 5).

Libraries used: Coq standard library, Flocq (binary64 rounding in `FloatBox.v`), Coquelicot (derivatives in
`RBFDeriv.v`). `Print Assumptions` shows that none of them contributes an axiom of its own.

## 3. Properties

Status: **P** proved in full for the model; **p** partial – what is missing is in the last column. A theorem named `…_refuted` exhibits a run of the unchanged code that violates the property.

| id | property | modelled by | proof | theorems (file) | status, what is missing |
|---|---|---|---|---|---|
| C01 | Evaluation budget is never exceeded | strategy LTS (`Strategy.v`) | invariant over every sequence of controller micro-steps | `C01_budget` (PropStrategy) | **P**  |
| C02 | Terminate is proposed only when idle, and is final | strategy LTS | invariant; ghost trace of proposals (`StrategySpec.v`) | `C02_terminate_only_when_idle`, `C02_stop_is_final`, `C02_nothing_after_terminate` (PropStrategy) | **P**  |
| C03 | The whole budget is used | strategy LTS | counting invariant (completed + pending + losses); refutation by a concrete run | `C03_C17_full_budget_partial`, `C03_no_abort`, `C03_completed_at_terminate` (PropStrategy); `C03_full_budget_refuted` (ExStrategy) | **p** Proved: without aborts after the stopping criterion is observed exactly max_evals evaluations complete; exact loss formula otherwise. The second half of the property is false of the code (terminate is sticky): C03_full_budget_refuted. |
| C04 | X, fX and fevals are the faithful history | strategy LTS | `X`, `fX`, `fevals` related to the ghost history; invariant | `C04_history`, `C04_each_once` (PropStrategy) | **P**  |
| C05 | Pending bookkeeping is exact | strategy LTS | multiset invariant (`Permutation`); refutation by a run with two equal points | `C05_pending_count`, `C05_xpend_partial` (PropStrategy); `C05_xpend_refuted` (ExStrategy) | **p** pending_evals exact in all runs; Xpend exact if no point is proposed while an equal one is outstanding, always a sub-multiset; false with repeated points: C05_xpend_refuted. |
| C06 | A restart forgets the old run | strategy LTS | history split at restarts; invariant | `C06_restart_isolation`, `C06_restart_resets` (PropStrategy) | **P**  |
| C07 | The surrogate sees every evaluation of the current run | strategy LTS + SRBF hooks | invariant between surrogate contents and history; refutation by an asynchronous run | `C07_surrogate_complete_partial` (PropStrategy); `C07_srbf_sync` (PropSRBF); `C07_surrogate_complete_refuted` (ExSRBF) | **p** Proved for every strategy that opens a new event epoch only when idle, in particular synchronous SRBF/DYCORS; refuted for asynchronous SRBF/DYCORS. |
| C08 | Initial design points are not lost | strategy LTS | conservation law as multiset equation; refutation by a run | `C08_queued_points_conserved_partial`, `C08_initial_queue`, `C08_C09_requeue` (PropStrategy); `C08_design_lost_refuted` (ExStrategy) | **p** Exact conservation law (queued = in queue + outstanding + evaluated + given up); false that design points are never given up. |
| C09 | Synchronous batches are barriers | strategy LTS | invariant over synchronous runs | `C09_batch_barrier`, `C09_batch_complete`, `C08_C09_requeue` (PropStrategy) | **P**  |
| C10 | Asynchronous mode never idles a free worker | strategy LTS + SRBF/EI/LCB hooks | case analysis of one `propose_action` in every reachable state | `C10_async_always_proposes` (PropStrategy); `C10_srbf_async_always_proposes` (PropSRBF); `C10_ei_async_always_proposes`, `C10_lcb_async_always_proposes` (EIStrat) | **P** Hypothesis generates (the candidate search returns at least one point) is discharged for SRBF/DYCORS, EI and LCB. |
| C11 | The strategy never stalls | strategy LTS | one-step liveness in every reachable state; refutation by a run | `C11_no_stall_partial` (PropStrategy); `C11_no_stall_refuted` (ExStrategy) | **p** Holds with use_restarts=True; refuted with use_restarts=False. |
| C12 | Serial runs finish | strategy LTS under a serial driver (`StrategySerial.v`) | well-founded measure on (budget, queue), total run of the driver | `C12_serial_run_finishes` (PropStrategy); `C12_srbf_serial_run_finishes` (PropSRBF); `C12_ei_serial_run_finishes`, `C12_lcb_serial_run_finishes` (EISerial); `C12_sop_serial_run_finishes` (SOPSerial) | **P** General theorem plus its instances for SRBF/DYCORS, EI, LCB and SOP. |
| C13 | Every proposed point is feasible | strategy LTS + candidate searches (`Cand.v`, `EndToEnd.v`, `EIStrat.v`) | feasibility invariant; hooks discharged by C33/C35 | `C13_feasible` (PropStrategy); `C13_srbf`, `C13_dycors` (EndToEnd); `C13_ei`, `C13_lcb` (EIStrat); `C13_sop`, `C13_sop_rbf` (SOPFeas) | **P** General theorem relative to feasibility of designs and candidates; for SRBF, DYCORS, EI, LCB and SOP with the modelled searches, relative to feasibility of the designs only (designs: C41, C44). |
| C14 | Checkpoint file is replaced atomically | file system with crashes (`Checkpoint.v`) | case analysis over all prefixes of the primitive operations of `save` | `C14_save_atomic`, `C14_crash_then_resume`, `C14_never_corrupt` (PropCheckpoint) | **P** File-system model; rename is atomic by assumption. |
| C15 | Resume restores a consistent strategy | strategy LTS with `resume` | equation on the snapshot in any reachable state | `C15_resume` (PropStrategy) | **P**  |
| C16 | Resume re-queues interrupted initial points | strategy LTS with `resume` | multiset equation; refutation by a run | `C16_resume_requeues_partial`, `C16_design_survives_partial` (PropStrategy); `C16_resume_loses_design_refuted` (ExStrategy) | **p** Holds for snapshots in phase 1 without duplicate points; refuted for later snapshots. |
| C17 | A resumed run still uses the whole budget | strategy LTS with crash + resume steps | counting invariant across resumes; refutation | `C03_C17_full_budget_partial` (PropStrategy); `C17_resumed_budget_refuted` (ExStrategy) | **p** Holds if the crash happens before the stopping criterion is observed; refuted otherwise. |
| C18 | Checkpoint files are never silently overwritten or missing | `CheckpointController` (`Checkpoint.v`) | branch-by-branch; event traces for the snapshot rule | `C18_run_refuses`, `C18_resume_refuses`, `C18_saved_under_name_partial`, `C18_directory_refuted`, `C18_snapshot_after_finish`, `C18_snapshot_only_then`, `C18_terminate_saved` (PropCheckpoint) | **p** Refuted for checkpoint names with a directory component. |
| C19 | SRBF/DYCORS sampling radius stays in its range | SRBF hooks (`SRBF.v`, `FloatStep.v`) | invariant; radius is a rational `0.2 * 2^k`; `FloatStep.v`: failtol and the radii computed in doubles are exactly those of the model | `C19_constants`, `C19_radius_range`, `C19_radius_start`, `C19_radius_moves` (PropSRBF); `C19_failtol_in_doubles`, `C19_radius_in_doubles` (FloatStep) | **P** Radius on exact rationals starting at the double 0.2; proved: the double computations of failtol, of the radius and of its comparison with the minimum give exactly those values in every reachable state. |
| C20 | SRBF/DYCORS success/failure rule | SRBF hooks | step rule against an independent specification of counters and thresholds | `C20_steps_are_evaluations`, `C20_step_rule`, `C20_convergence` (PropSRBF) | **P**  |
| C21 | Improvement is measured against the current run | SRBF hooks, `FloatStep.v` | exact improvement rule in every reachable state; refutation; `FloatStep.v`: the test in doubles agrees outside a band of 2^-52 of the best value | `C21_improvement_rule_partial` (PropSRBF); `C21_improvement_in_doubles` (FloatStep); `C21_first_step_refuted`, `C21_small_improvement_drifts` (ExSRBF) | **p** The exact rule is proved; it ignores the initial design, so the property as stated is refuted. The rule is stated with exact arithmetic and 1/1000; C21_improvement_in_doubles: the test as evaluated in doubles (1e-3 is not 1/1000) agrees with it unless the new value is within 2^-52 of the best value from the threshold, and never accepts a value that is not smaller. |
| C22 | Weights are cycled in order | SRBF hooks | index arithmetic of `next_weight` over a whole run | `C22_weights_cycle` (PropSRBF) | **P**  |
| C23 | DYCORS perturbation probability is a probability | DYCORS probability (`Dycors.v`) | real analysis of the log formula; counting invariant; refutation | `C23_probability`, `C23_antitone`, `C23_first`, `C23_count_partial`, `C23_count_refuted` (Dycors) | **p** Range and monotonicity proved over the reals wherever the formula is defined; the count it is evaluated at can be negative after a resume (C23_count_refuted). |
| C24 | nd_front returns exactly the non-dominated points | `nd_add`/`nd_front` (`Pareto.v`) | loop invariant, for all point sets | `C24_nd_front` (PropPareto) | **P** For N>=1; with no points nd_front returns index 0 (ex_C24_empty). |
| C25 | nd_sorting ranks are the Pareto layers | `nd_sorting` | induction on layers against a layer specification | `C25_nd_sorting` (PropPareto) | **P**  |
| C26 | Radius rule | `check_radius_rule` | iff with a quantified statement over R | `C26_radius_rule` (PropPareto) | **P** Over the reals. |
| C27 | SOP archive and center indices are consistent | SOP hooks (`SOP.v`) | invariant in all runs | `C27_archive`, `C27_centers`, `C27_count`, `C27_never_converges` (PropSOP) | **P**  |
| C28 | SOP failure/tabu memory | SOP hooks; the radii also in IEEE doubles (FloatSOP.v) | step relation and range invariant; evaluation of the finitely many double radii | `C28_ranges`, `C28_step` (PropSOP); `C28_search` (SOPSearch); `C28_radius_in_doubles` (FloatSOP) | **P** Counters on naturals, radius on exact rationals; C28_radius_in_doubles shows that the radii are exactly the doubles that Python holds. |
| C29 | SOP center selection order | SOP center selection | characterisation of the loop against an order specification | `C29_center_selection` (PropSOP) | **P** Given a complete table of ranks. |
| C30 | SOP centers are chosen by Pareto rank | SOP hooks | reachable-state lemma + refutation by a run | `C30_first_selection_partial`, `C30_ranks_forgotten`, `C30_ranks_forgotten_sync` (PropSOP); `C30_not_by_rank_refuted` (ExSOP) | **p** Only the first selection of centers uses the ranks; afterwards the rank table is empty, so the property is refuted for later steps. |
| C31 | SOP never fails on a legal schedule | SOP hooks (`SOPTotal.v`, `SOPAsync.v`) | totality invariants on synchronous and on asynchronous runs; eight refutations by runs | `C31_sync_never_fails_partial` (SOPTotal); `C31_async_never_fails_partial` (SOPAsync); `C31_small_batch_refuted`, `C31_many_workers_refuted`, `C31_rejects_leak_centers_refuted`, `C31_kill_in_batch_refuted`, `C31_kill_in_design_refuted`, `C31_duplicate_points_refuted`, `C31_early_worker_refuted`, `C31_resume_refuted` (ExSOP) | **p** Proved (1) for synchronous runs with batch size = ncenters, no aborted evaluations, no resume and pairwise distinct queued points (any workers, any rejections, any order of completions) and (2) for asynchronous runs without resume, with distinct points, if at each request served by a search the design is finished and fewer than ncenters adaptive proposals lack a value (any order of completions, any rejections and kills within that bound). Missing: the property as stated is false; eight other legal schedules on which SOP raises are exhibited. |
| C32 | Weighted-distance merit picks the best admissible candidate | `weighted_distance_merit` and the searches (`Cand.v`) | loop invariant over picks | `C32_merit`, `C32_spread`, `C32_srbf`, `C32_dycors`, `C32_uniform` (PropCand) | **P** Over the reals extended with inf; if no admissible candidate is left index 0 is returned (this is part of the theorem). The last three lift the separation to the searches: evaluated points, pending points and earlier picks. |
| C33 | Candidate points stay in the domain | candidate generation | per-coordinate box argument; oracle contract of `truncnorm.rvs` visible | `C33_srbf`, `C33_uniform`, `C33_dycors_partial`, `C33_dycors_subset_refuted`, `C33_dycors_permuted_refuted` (PropCand) | **p** DYCORS only for subset None or 0..len-1; other subsets refuted. |
| C34 | DYCORS always perturbs something and can perturb anything | DYCORS perturbation mask | for every draw of the random generator | `C34_always_perturbs`, `C34_last_never_forced_refuted` (PropCand) | **p** Every candidate perturbs a coordinate; the last coordinate is never the forced one, so the second half is refuted. |
| C35 | The genetic algorithm is elitist and feasible | GA (`GA.v`) | invariant over generations for every oracle | `C35_ga`, `C35_start_refuted` (PropGA); `C35_initial_fractional` (GAFrac) | **p** Proved for the built-in start populations (SLHD, LHD, random) and functions that never return nan; refuted for an accepted user-supplied start population. |
| C36 | The genetic algorithm accepts feasible start populations | GA start-population test | iff; refutation | `C36_accepts_partial`, `C36_feasible_rejected_refuted`, `C36_infeasible_accepted_refuted` (PropGA) | **p** The test is inverted: the exact condition is proved, the property as stated is refuted for every problem. |
| C37 | EI/LCB batches are spread out and good enough | `ei_ga`, `lcb_ga`, EI/LCB strategies | fuelled loop; result specification over reals; lifted to all runs | `C37_ei`, `C37_lcb`, `C37_zero_tol_refuted`, `C37_lcb_default_refuted` (PropGA); `C37_ei_strategy`, `C37_lcb_strategy` (EIStrat) | **P** For the functions ei_ga/lcb_ga and for every batch generated in any run of EIStrategy/LCBStrategy. Limits: ei_tol = 0 does not enforce the distance, lcb_target=None raises. |
| C38 | Unit box maps are mutually inverse | unit box maps over R (`Box.v`) and in binary64 (`FloatUnit.v`) | algebra; in doubles monotonicity of rounding and the error bound of C75 | `C38_inverse`, `C38_onto`, `C38_increasing`, `C38_matrix` (PropBox); `C38_to_unit_in_doubles`, `C38_round_trip_in_doubles` (FloatUnit) | **P** Exact arithmetic for C38_inverse, C38_onto, C38_increasing and C38_matrix. In doubles: a point of the box is mapped into [0,1], weakly monotonically, the bounds exactly to 0 and 1, and mapping back returns it up to 2^-51 of its distance to the lower bound plus 2^-53 of its size; the other direction may leave the box by rounding (C39). |
| C39 | Mapped designs respect the bounds in floating point | unit box maps in binary64 (Flocq) | monotonicity of rounding; refutation by computation | `C39_bounds_partial`, `C39_upper_refuted` (FloatBox) | **p** Binary64 arithmetic (Flocq): the lower bound always holds, the upper bound if ub-lb is exact; refuted in general ([-0.9, 0.2] maps 1.0 above 0.2). |
| C40 | unit_rescale | `unit_rescale` over R and binary64 | min/max folds | `C40_unit_rescale` (PropBox); `C40_unit_rescale_float` (FloatBox) | **P** Over the reals and in binary64 without overflow. |
| C41 | round_vars returns the closest feasible integer | `round_vars` | nearest integer within the bounds | `C41_round_vars`, `C41_idempotent`, `C41_fractional_bounds_refuted` (PropBox) | **P** Integrality and idempotence need integral bounds of the integer variables; shown false otherwise. |
| C42 | Symmetric Latin hypercube | `_slhd` | permutation argument for every draw | `C42_slhd`, `C42_unit_box` (PropDesign) | **P** Exact levels over the reals, for every draw and num_pts >= 2 (num_pts = 1 divides by zero). |
| C43 | Two-factorial design | `TwoFactorial` | induction on the dimension | `C43_two_factorial` (PropDesign) | **P**  |
| C44 | The best valid design is chosen | `_expdes_dist`, design generation | fold over trials with arbitrary generators and rank function | `C44_best_valid_design`, `C44_slhd_feasible`, `valid_distinct` (PropDesign) | **P** numpy.linalg.matrix_rank is a parameter; pyDOE2 generators are covered by C44_best_valid_design as arbitrary generators. |
| C45 | Surrogates contain exactly what was added | surrogate store (`RBF.v`) | refinement to a list of added points, all histories | `C45_contents`, `C45_no_refit`, `C46_same_contents`, `C45_stuck` (PropRBF); `C45_sklearn`, `C45_sklearn_no_refit`, `C45_stuck_refuted` (PropSurr) | **p** Contents and refit rule hold in every history; predictions reflect all data for the scikit-learn surrogates always and for RBF as long as no fit raised LinAlgError since the last reset. After such an error RBF never recovers until reset: C45_stuck, C45_stuck_refuted. |
| C46 | Incremental RBF fit equals a fit from scratch | incremental LU/Cholesky fit (`RBFFit.v`) | block factorisation invariant; uniqueness of the solution | `C46_predict`, `C46_same_contents`, `C46_incremental_partial` (PropRBF); `C45_stuck_refuted` (PropSurr) | **p** Exact arithmetic with concrete LU/Cholesky. Needs that no earlier fit since the last reset raised LinAlgError; otherwise false (C45_stuck_refuted). |
| C47 | RBF interpolation | RBF system | linear algebra over R | `C47_interpolation`, `C47_exact`, `C47_reproduction` (PropRBF); `C47_affine` (PropSurr) | **P** Exact arithmetic. |
| C48 | predict_deriv is the gradient of predict | `predict`, `predict_deriv` | derivatives (Coquelicot) | `C48_gradient` (RBFDeriv) | **P** Every directional derivative, all kernels and tails; points closer than eps=2^-52 to a data point (but not on it) are excluded, because the code clips these distances. |
| C49 | Median capping | `MedianCapping` | order statistics | `C49_median_capping` (PropSurr) | **P**  |
| C50 | RBF kernel/tail choice | RBF constructor | case analysis over all kernel/tail pairs | `C50_both_given_partial`, `C50_one_omitted_refuted` (PropSurr) | **p** If only one of kernel/tail is given it is silently ignored. |
| C51 | Benchmark problems: declared minimum is a global lower bound | benchmark functions (`Problems.v`) | inequalities over R; interval certificate evaluated in the kernel for Hartmann | `C51_minimum_partial`, `C51_exact_minimum`, `C51_schwefel_refuted`, `C51_schwefel_lower` (PropProblems) | **p** All 18 problems with a declared minimum, over the reals, all dimensions; Schwefel up to dimension 78, refuted from 79 on. Hartmann by a certificate checked in the kernel. |
| C52 | Benchmark problems: declared minimizer is feasible | benchmark functions | computation on the declared data | `C52_feasible_partial`, `C52_branin_refuted` (PropProblems) | **p** All problems except Branin, whose declared minimizer is outside the domain. |
| C53 | check_opt_prob accepts exactly well-formed problems | `check_opt_prob` (`Inputs.v`) | iff with a well-formedness specification | `C53_accepted_partial`, `C53_wellformed_accepted`, `C53_duplicates_refuted`, `C53_benchmarks_accepted` (PropInputs) | **p** Duplicate indices in int_var are accepted. |
| C54 | Constructor argument validation | `check_input` methods | iff; refutations | `C54_batch_required`, `C54_base_accepts_partial`, `C54_max_evals_refuted`, `C54_random_refuted`, `C54_ncenters_refuted`, `C54_sop_accepts_partial`, `C54_srbf_accepts_partial`, `C54_gp_required` (PropInputs) | **p** Which inputs are accepted is characterised exactly; negative or zero int max_evals (and ncenters, and RandomStrategy max_evals) are accepted. |
| C55 | RandomStrategy | RandomStrategy + retry queue (`RandomStrat.v`) | multiset invariant over schedules | `C55_conservation`, `C55_in_box`, `C55_terminate` (RandomStrat) | **P** POAP RetryStrategy modelled from its documentation. |
| C56 | Extra points | extra points in the strategy LTS | equations on the first design; refutation | `C56_extra_points_partial`, `C56_restart_no_extras` (PropStrategy); `C56_inf_is_unknown_refuted` (ExStrategy) | **p** nan handled as documented; inf is not. |
| C57 | Best known point is the search center | SRBF search center (`EndToEnd.v`) | invariant; refutations by runs | `C57_center_partial` (EndToEnd); `C57_known_extra_refuted`, `C57_async_refuted` (ExEndToEnd) | **p** Holds in synchronous mode for the evaluations of the run; refuted for extra points with known value and in asynchronous mode. |
| C58 | Counters of accepted and rejected proposals | strategy LTS | counting invariant | `C58_counters` (PropStrategy) | **P**  |
| C59 | RBF prediction succeeds exactly for data in general position | `PosDef`, `PropSolve` on top of `RBF` (`fit`, `predict`, `predict_deriv`) | Gaussian kernel is psd by its power series; r^3, r and r^2 log r as integrals over Gaussian differences (Coquelicot RInt); hence the saddle point matrix is regular iff the points are affinely spanning; then C46_predict by induction over the history | `C59_solvable`, `C59_default`, `C59_incremental` (PropSolve) | **P** Over the reals. Conditional positive definiteness of the cubic, thin plate spline and linear kernels is proved in PosDef.v. |
| C60 | RBF with the linear kernel | `RBF`, `PosDef` (linear_strict) | explicit kernel vector for two points at distance eta; negative definiteness on mean-free weights for eta = 0 | `C60_linear_refuted`, `C60_linear_partial` (PropSolve) | **p** Refuted for the default eta: two points at (unit box) distance eta make the system singular. Proved for eta = 0. |
| C61 | SRBF and DYCORS with the default RBF surrogate never raise | `SyncRun`, `SRBFRun` on top of `Strategy`, `SRBF`, `Cand`, `EndToEnd`, `RBF` | invariant over micro-steps: every current design point is queued, outstanding, in the data or was given up; completions are fresh in synchronous mode; hence the data is in general position when points are generated and C59 applies; the incrementally extended object is followed through its call history (C59_incremental); serial runs by padding the search to a total one and C12; refutations by evaluation | `C61_srbf_no_call_raises`, `C61_srbf_enough_data`, `C61_dycors_enough_data`, `C61_srbf_run`, `C61_srbf_serial`, `C61_srbf_object`, `C61_dycors_no_call_raises`, `C61_dycors_run`, `C61_dycors_serial`, `C61_dycors_object` (SRBFRun); `C61_async_refuted`, `C61_inf_refuted`, `C61_killed_refuted`, `C61_resume_refuted` (ExSRBFRun) | **p** Proved for synchronous strategies, in every state of every run as long as the process was not resumed and no evaluation of a current design point was given up. Refuted otherwise: asynchronous mode with more workers than design points raises, a design point can be lost by two kills or by crash and resume, after which every request raises; an infinite value raises. |
| C62 | ei_merit is the expected improvement | `Gauss`, `PropEI` on top of `GA` | Gaussian integral by differentiation under the integral sign; explicit antiderivative of the improvement; monotonicity from signs of derivatives | `C62_expected_improvement`, `C62_filter`, `C62_positive_iff`, `C62_bounds`, `C62_monotone`, `C62_textbook`, `C62_lcb_quantile` (PropEI) | **P** scipy.stats.norm.pdf/cdf are the normal density and any function that is its distribution function (existence and total mass 1, i.e. the Gaussian integral, are proved: cdf0_is_cdf, normal_pdf_total). predict_std = 0 (0/0 in numpy) is outside the theorem. |
| C63 | GPRegressor standardises: values with mean 0 and deviation 1, and predictions follow affine changes of the objective | `GPWrap` on top of `PropSurr` | algebra of mean and standard deviation, through C45_sklearn for histories | `C63_standardised`, `C63_affine`, `C63_threshold_refuted` (GPWrap) | **P** exact reals; GaussianProcessRegressor.fit/predict are parameters (any functions of points and standardised values). |
| C64 | Surrogates do not depend on the units of the variables | `SurrUnits` | simulation between the two runs (the stored original points are the only difference) | `C64_rbf`, `C64_sklearn` (SurrUnits) | **P** exact reals, non-degenerate boxes. |
| C65 | RBF predictions do not depend on the order of the data and are equivariant in the values | `RBFEquiv`, `SurrUnits` | both predictions are the value of the unique interpolant (C46), transported along the permutation / affine map | `C65_transformations`, `C65_order`, `C65_affine`, `C65_linear` (RBFEquiv); `C65_history` (SurrUnits) | **P** exact reals. |
| C66 | Runs do not depend on the unit of the objective | `StratMap` (generic simulation of two runs), `ScaleRun`, `ScaleEI`, `ScaleSOP` | simulation step by step through all callbacks, with equivariance of the improvement test, the surrogate (C65, C63), unit_rescale and the merit search | `C66_srbf`, `C66_dycors` (ScaleRun); `C66_ei`, `C66_lcb`, `C66_gp`, `C66_srbf_shift_refuted` (ScaleEI); `C66_sop`, `C66_sop_rbf` (ScaleSOP) | **P** exact reals/rationals; same random draws in both runs (the draws do not depend on the values). The statement excludes shifts for SRBF/DYCORS; C66_srbf_shift_refuted shows that this is needed. |
| C67 | Synchronous runs do not depend on the order in which a batch completes | `SyncOrder` (generic simulation of two schedules), `SyncSRBF`, `SyncEI` | both runs are reduced to a canonical schedule-free state by an invariant relating the archive, the queues and the subclass state up to permutation inside the batch; the search is shown to be permutation invariant | `C67_srbf`, `C67_dycors`, `C67_srbf_full`, `C67_dycors_full` (SyncSRBF); `C67_ei`, `C67_lcb`, `C67_ties_refuted` (SyncEI) | **p** C67_ties_refuted shows that the unchanged code violates it for SRBF when two evaluated points have equal values; C67_srbf/C67_dycors (default RBF) and the _full versions (any surrogate insensitive to the order of its data) prove it when they are distinct; C67_ei/C67_lcb need no such condition. Accepted proposals only (no rejections or failures); SOP is not covered. |
| C68 | Resuming from a checkpoint is the same as killing the running evaluations | `ResumeKill` (simulation of a resumed and a killed run), `ResumeSerial`, `ResumeInst` | a relation (equal up to the list of finished records) preserved by every call; killing all running evaluations of a clean snapshot is shown to end in the resumed state by induction over them | `C68_resume_is_kill`, `C68_crash_free` (ResumeKill); `C68_serial`, `C68_nothing_finished_lost` (ResumeSerial); `C68_strategies`, `C68_unclean_refuted`, `C68_save_first_refuted` (ResumeInst) | **p** C68_resume_is_kill covers clean snapshots (nothing running; or in the initial phase only points of the design running, no equal points at once; or no point of the design running in the adaptive phase), C68_serial shows that a serial controller only produces such snapshots. C68_unclean_refuted and C68_save_first_refuted show that the unchanged code violates the rest. C68_strategies: SRBF, DYCORS, EI, LCB and SOP meet the hypothesis that they never read the list of finished records. |
| C69 | What SRBF, DYCORS and SOP propose, in terms of the history of the run | `Picks` (specification, SRBF, DYCORS), `PicksSOP` (SOP, examples), `RbfPicks`/`RbfPicksSOP` (the same with the RBF surrogate) on top of the executable candidate searches in `Cand` | the state before the call is related to the history by the invariants of C05, C07, C13, C25 and C28; C32 then gives the greedy choice | `C69_srbf`, `C69_dycors` (Picks); `C69_sop` (PicksSOP); `C69_srbf_rbf`, `C69_dycors_rbf` (RbfPicks); `C69_sop_rbf` (RbfPicksSOP) | **P** In asynchronous mode an evaluation that completes after a restart may be left out of the data (finding of C07), so data is a subsequence of the evaluations of the run there and equal to them in synchronous mode. Distances, predictions and the normal variables are arbitrary functions, the arithmetic is that of the real numbers. C69_srbf_rbf, C69_dycors_rbf and C69_sop_rbf are the same with the RBF surrogate in place of arbitrary predictions; ex_C69_sop_rbf is a run of SOP with that surrogate that generates a batch. |
| C70 | The MARS surrogate predicts with its model of the data and differentiates it | `Mars` (hinge models, numpy broadcasting of the final division) | invariant over histories (as C45); product rule by induction over the factors and terms, hinges are locally linear away from their knots | `C70_history`, `C70_continuous`, `C70_gradient_flat_partial`, `C70_gradient_partial`, `C70_rows_refuted` (Mars) | **p** py-earth is a parameter that may learn any model of the documented form. C70_gradient_flat_partial is the gradient at the first point if py-earth returned an array of size points x variables; C70_gradient_partial describes the answer for the three-dimensional array of py-earth. C70_rows_refuted shows that the unchanged code violates the property as stated. |
| C71 | Optimization runs do not depend on the origin and the unit of length of the variables | `PointMap` (generic simulation), `UnitsRun`, `UnitsSmall`, `ExUnits`, `UnitsEI`, `UnitsSOP` | simulation: every hook commutes with the map of the points; the candidates, the genetic algorithm, the distances and the predictions of the surrogates are covariant; small boxes: no candidate is admissible, so the picks of C32 are the first candidate | `C71_srbf`, `C71_dycors` (UnitsRun); `C71_sop`, `C71_sop_origin` (UnitsSOP); `C71_srbf_origin`, `C71_dycors_origin`, `C71_srbf_small_box_refuted`, `C71_srbf_small_box_copies_refuted`, `C71_dycors_small_box_refuted`, `C71_dycors_small_box_copies_refuted` (UnitsSmall); `C71_ei`, `C71_lcb` (UnitsEI); `C71_scale_refuted` (ExUnits) | **p** C71_ei and C71_lcb: EIStrategy and LCBStrategy (genetic algorithm, Gaussian process wrapper, default or given minimum distance) are fully invariant under a change of origin and unit. C71_srbf, C71_dycors, C71_sop: full invariance if the minimum distance were scaled with the box; with the fixed minimum distance of the code the origin does not matter (C71_srbf_origin, C71_dycors_origin, C71_sop_origin) but the unit of length does (C71_scale_refuted; the small box theorems say what happens in a small box, for every run). The unchanged code violates the property as stated. |
| C72 | No part of the domain is excluded from the search | `Reach`, `ReachSOP`, `ExReach` | the draws that lead from the center to y are computed and every draw nearby gives a candidate near y after clipping and rounding; the merit picks are candidates (C32); the request succeeds with other draws because the surrogate does not depend on them | `C72_srbf`, `C72_dycors` (Reach); `C72_sop`, `C72_sop_rbf` (ReachSOP) | **P** Draws are the standard normal variables (clamped to the truncation range of the code). For DYCORS and SOP the draws must also perturb every coordinate of every candidate; each coordinate is perturbed with probability at least 1/dim (C23_probability). That the box of draws has a positive probability is not formalized (no probability theory in the model). The arithmetic is that of the real numbers. |
| C73 | A generation of the genetic algorithm consists of the best individual and of children of tournament winners | `GA`, `GAStep` | inversion of one generation row by row (tournament, crossover, mutation, rounding by C41), induction over the generations | `C73_generations`, `C73_parents_partial`, `C73_winner_refuted` (GAStep) | **p** C73_generations describes every generation for all problems, with the unrounded positions of the individuals as a second list; C73_parents_partial: without integer variables the positions are the evaluated individuals, so every parent has the lowest value of its tournament; C73_winner_refuted: with an integer variable this is false in the unchanged code (population = new_population drops the best individual that was put into row 0 while its function value stays). Start populations are those drawn in the unit box (SLHD, LHD, Random); a start array is covered by C35/C36. |
| C74 | SOP with the default RBF surrogate does not raise | `SOP`, `SOPTotal`, `SOPAsync`, `RBF`, `Cand`, `SOPRbfRun` | C31 gives the calls for searches that never fail; the archive entries are feasible evaluated points, at which the RBF prediction exists when the evaluated points determine it (conservation of queued points, C08), so each search succeeds; induction over the run and over the evaluations of the serial controller | `C74_sop_sync_no_call_raises`, `C74_sop_sync_run`, `C74_sop_async_no_call_raises`, `C74_sop_serial` (SOPRbfRun) | **P** The RBF surrogate, the selection of centers and the candidate search are those of the model, nothing is assumed about them. The conditions are necessary in the unchanged code: C31 gives runs in which SOP raises because a point was queued twice, a request came before the decision on the last one, too many evaluations were under way, or after a resume; C61 runs in which the surrogate raises because values are infinite or the design was not evaluated. |
| C75 | Candidate points in double arithmetic | `FloatBox`, `FloatCand` | Flocq binary64; relative error of each operation, midpoint argument at the predecessor of the rounded width for uniform; induction over the history; refutation by computation in the kernel | `C75_candidate_near_box`, `C75_incumbent_on_bound`, `C75_uniform_in_box`, `C75_ga_clip_in_box`, `C75_no_drift`, `C75_candidate_in_box_refuted` (FloatCand) | **p** As stated the property is false of the unchanged code: in the unit box with the initial radius 0.2 and the incumbents 0.89 and 0.11, draws at the limits passed to truncnorm give -1.1e-16 and 1.0000000000000002 (refuted, kernel-computed). Proved: np.random.uniform and the clipped individuals of the genetic algorithm never leave the box; a candidate leaves it by at most 2^-51 times the distance to the incumbent plus 2^-53 times the bound; a bound on which the incumbent lies is respected exactly; over any history of design points, uniform points, clipped individuals and candidates of candidates all proposed coordinates stay within one tolerance, 2^-50 (width + largest bound) plus an underflow term. Not modelled: how scipy draws the standardized value (any value between the limits is allowed) and integer coordinates (rounded and clipped afterwards, C41). |
| C76 | Progress plot | `Progress` | induction over the records; characterization of the running minimum and of the outcome | `C76_plot_contents`, `C76_when_drawn_partial`, `C76_missing_matplotlib_refuted` (Progress) | **p** The contents of the plot are proved when all completed values are finite and there is one. As stated it is false of the unchanged code: it raises ValueError when no evaluation is completed or a value is infinite, and when matplotlib is missing the ImportError leaves the function (try with finally and no except), the documented message is never printed (all proved). matplotlib itself is represented only by whether it can be imported and by its requirement that axis limits are finite. |
| C77 | The run returns the best completed evaluation | `BestPoint` | permutation invariant between the controller's records and the finished and running evaluations of the history | `C77_records`, `C77_best`, `C77_crash_keeps_best` (BestPoint) | **P** best_point is the minimum by value over the completed records of the controller (POAP). Extra points with a known value are not evaluations and have no record, so they are never returned. Values are compared by any irreflexive and transitive relation; nan is excluded. |

## 4. Assumptions of each theorem (`Print Assumptions`)

All axioms are those of the Coq standard library (`Reals`, `Classical_Prop`, `FunctionalExtensionality`). No axiom is added by this development or taken from another library.

* **Closed under the global context** (106 theorems): `C01_budget`, `C02_terminate_only_when_idle`, `C02_stop_is_final`, `C02_nothing_after_terminate`, `C03_C17_full_budget_partial`, `C03_no_abort`, `C03_completed_at_terminate`, `C03_full_budget_refuted`, `C04_history`, `C04_each_once`, `C05_pending_count`, `C05_xpend_partial`, `C05_xpend_refuted`, `C06_restart_isolation`, `C06_restart_resets`, `C07_surrogate_complete_partial`, `C07_srbf_sync`, `C07_surrogate_complete_refuted`, `C08_queued_points_conserved_partial`, `C08_initial_queue`, `C08_C09_requeue`, `C08_design_lost_refuted`, `C09_batch_barrier`, `C09_batch_complete`, `C10_async_always_proposes`, `C10_srbf_async_always_proposes`, `C11_no_stall_partial`, `C11_no_stall_refuted`, `C12_serial_run_finishes`, `C12_srbf_serial_run_finishes`, `C12_sop_serial_run_finishes`, `C13_feasible`, `C14_save_atomic`, `C14_crash_then_resume`, `C14_never_corrupt`, `C15_resume`, `C16_resume_requeues_partial`, `C16_design_survives_partial`, `C16_resume_loses_design_refuted`, `C17_resumed_budget_refuted`, `C18_run_refuses`, `C18_resume_refuses`, `C18_saved_under_name_partial`, `C18_directory_refuted`, `C18_snapshot_after_finish`, `C18_snapshot_only_then`, `C18_terminate_saved`, `C19_constants`, `C19_radius_range`, `C19_radius_start`, `C19_radius_moves`, `C20_steps_are_evaluations`, `C20_step_rule`, `C20_convergence`, `C21_improvement_rule_partial`, `C21_first_step_refuted`, `C21_small_improvement_drifts`, `C22_weights_cycle`, `C23_count_partial`, `C23_count_refuted`, `C24_nd_front`, `C25_nd_sorting`, `C27_archive`, `C27_centers`, `C27_count`, `C27_never_converges`, `C28_ranges`, `C28_step`, `C28_search`, `C29_center_selection`, `C30_first_selection_partial`, `C30_ranks_forgotten`, `C30_ranks_forgotten_sync`, `C30_not_by_rank_refuted`, `C31_sync_never_fails_partial`, `C31_async_never_fails_partial`, `C31_small_batch_refuted`, `C31_many_workers_refuted`, `C31_rejects_leak_centers_refuted`, `C31_kill_in_batch_refuted`, `C31_kill_in_design_refuted`, `C31_duplicate_points_refuted`, `C31_early_worker_refuted`, `C31_resume_refuted`, `C34_last_never_forced_refuted`, `C50_both_given_partial`, `C50_one_omitted_refuted`, `C55_conservation`, `C55_in_box`, `C55_terminate`, `C56_extra_points_partial`, `C56_restart_no_extras`, `C56_inf_is_unknown_refuted`, `C58_counters`, `C66_sop`, `C66_srbf_shift_refuted`, `C68_resume_is_kill`, `C68_crash_free`, `C68_serial`, `C68_nothing_finished_lost`, `C68_unclean_refuted`, `C68_save_first_refuted`, `C76_missing_matplotlib_refuted`, `C77_records`, `C77_best`, `C77_crash_keeps_best`

* **`ClassicalDedekindReals.sig_forall_dec`, `FunctionalExtensionality.functional_extensionality_dep`** (80 theorems): `C10_ei_async_always_proposes`, `C10_lcb_async_always_proposes`, `C12_ei_serial_run_finishes`, `C12_lcb_serial_run_finishes`, `C13_srbf`, `C13_dycors`, `C13_ei`, `C13_lcb`, `C13_sop`, `C32_merit`, `C32_spread`, `C32_srbf`, `C32_dycors`, `C32_uniform`, `C33_srbf`, `C33_uniform`, `C33_dycors_partial`, `C33_dycors_subset_refuted`, `C33_dycors_permuted_refuted`, `C34_always_perturbs`, `C35_ga`, `C35_initial_fractional`, `C35_start_refuted`, `C36_accepts_partial`, `C36_feasible_rejected_refuted`, `C36_infeasible_accepted_refuted`, `C37_ei`, `C37_lcb`, `C37_ei_strategy`, `C37_lcb_strategy`, `C37_zero_tol_refuted`, `C37_lcb_default_refuted`, `C38_inverse`, `C38_onto`, `C38_increasing`, `C38_matrix`, `C40_unit_rescale`, `C41_round_vars`, `C41_idempotent`, `C41_fractional_bounds_refuted`, `C42_slhd`, `C42_unit_box`, `C43_two_factorial`, `C45_sklearn`, `C45_sklearn_no_refit`, `C49_median_capping`, `C53_accepted_partial`, `C53_wellformed_accepted`, `C53_duplicates_refuted`, `C54_batch_required`, `C54_base_accepts_partial`, `C54_max_evals_refuted`, `C54_random_refuted`, `C54_ncenters_refuted`, `C54_sop_accepts_partial`, `C54_srbf_accepts_partial`, `C54_gp_required`, `C57_center_partial`, `C57_known_extra_refuted`, `C57_async_refuted`, `C64_sklearn`, `C65_transformations`, `C66_ei`, `C66_lcb`, `C67_srbf_full`, `C67_dycors_full`, `C67_ei`, `C67_lcb`, `C67_ties_refuted`, `C69_srbf`, `C69_dycors`, `C69_sop`, `C70_history`, `C70_rows_refuted`, `C72_sop`, `C73_generations`, `C73_parents_partial`, `C73_winner_refuted`, `C76_plot_contents`, `C76_when_drawn_partial`

* **`ClassicalDedekindReals.sig_forall_dec`, `ClassicalDedekindReals.sig_not_dec`, `FunctionalExtensionality.functional_extensionality_dep`** (13 theorems): `C44_best_valid_design`, `C44_slhd_feasible`, `valid_distinct`, `C52_feasible_partial`, `C52_branin_refuted`, `C53_benchmarks_accepted`, `C62_filter`, `C63_standardised`, `C63_affine`, `C63_threshold_refuted`, `C66_gp`, `C71_ei`, `C71_lcb`

* **`ClassicalDedekindReals.sig_forall_dec`, `ClassicalDedekindReals.sig_not_dec`, `Classical_Prop.classic`, `FunctionalExtensionality.functional_extensionality_dep`** (96 theorems): `C13_sop_rbf`, `C19_failtol_in_doubles`, `C19_radius_in_doubles`, `C21_improvement_in_doubles`, `C23_probability`, `C23_antitone`, `C23_first`, `C26_radius_rule`, `C28_radius_in_doubles`, `C38_to_unit_in_doubles`, `C38_round_trip_in_doubles`, `C39_bounds_partial`, `C39_upper_refuted`, `C40_unit_rescale_float`, `C45_contents`, `C45_no_refit`, `C46_same_contents`, `C45_stuck`, `C45_stuck_refuted`, `C46_predict`, `C46_incremental_partial`, `C47_interpolation`, `C47_exact`, `C47_reproduction`, `C47_affine`, `C48_gradient`, `C51_minimum_partial`, `C51_exact_minimum`, `C51_schwefel_refuted`, `C51_schwefel_lower`, `C59_solvable`, `C59_default`, `C59_incremental`, `C60_linear_refuted`, `C60_linear_partial`, `C61_srbf_no_call_raises`, `C61_srbf_enough_data`, `C61_dycors_enough_data`, `C61_srbf_run`, `C61_srbf_serial`, `C61_srbf_object`, `C61_dycors_no_call_raises`, `C61_dycors_run`, `C61_dycors_serial`, `C61_dycors_object`, `C61_async_refuted`, `C61_inf_refuted`, `C61_killed_refuted`, `C61_resume_refuted`, `C62_expected_improvement`, `C62_positive_iff`, `C62_bounds`, `C62_monotone`, `C62_textbook`, `C62_lcb_quantile`, `C64_rbf`, `C65_order`, `C65_affine`, `C65_linear`, `C65_history`, `C66_srbf`, `C66_dycors`, `C66_sop_rbf`, `C67_srbf`, `C67_dycors`, `C68_strategies`, `C69_srbf_rbf`, `C69_dycors_rbf`, `C69_sop_rbf`, `C70_continuous`, `C70_gradient_flat_partial`, `C70_gradient_partial`, `C71_srbf`, `C71_dycors`, `C71_sop`, `C71_srbf_origin`, `C71_dycors_origin`, `C71_sop_origin`, `C71_srbf_small_box_refuted`, `C71_srbf_small_box_copies_refuted`, `C71_dycors_small_box_refuted`, `C71_dycors_small_box_copies_refuted`, `C71_scale_refuted`, `C72_srbf`, `C72_dycors`, `C72_sop_rbf`, `C74_sop_sync_no_call_raises`, `C74_sop_sync_run`, `C74_sop_async_no_call_raises`, `C74_sop_serial`, `C75_candidate_near_box`, `C75_incumbent_on_bound`, `C75_uniform_in_box`, `C75_ga_clip_in_box`, `C75_no_drift`, `C75_candidate_in_box_refuted`

## 5. What is modelled and what is not

| code | model | not modelled / simplified |
|---|---|---|
| `strategy/surrogate_strategy.py` | `Strategy.v`, all methods (`propose_action`, `on_*`, `adjust_step` calls, `sample_initial`, `resume`, `save` through `Checkpoint.v`) | logging; function values are rationals/integers plus nan/inf where the code distinguishes them; code of the constructor before `check_input` |
| `strategy/srbf_strategy.py`, `dycors_strategy.py` | `SRBF.v`, `Dycors.v`, `EndToEnd.v`, with the RBF surrogate `SRBFRun.v` | radius as exact rational (`FloatStep.v`: exactly the doubles Python computes); candidates over R, in doubles `FloatCand.v`; probabilities over R |
| `strategy/ei_strategy.py`, `lcb_strategy.py` | `EIStrat.v`, `Gauss.v`/`PropEI.v` (closed form of EI from the integral), with GPRegressor `ScaleEI.v` | the GP is an arbitrary mean/variance function (C66: the standardising wrapper of gp.py around an arbitrary regressor) |
| `strategy/sop_strategy.py` | `SOP.v`, `SOPSearch.v`, with the candidate search `SOPFeas.v`, with the RBF surrogate `ScaleSOP.v` | `np.int` is taken to exist (removed in numpy ≥ 1.24) |
| two runs side by side (C66) | `StratMap.v` (any hooks that commute with a change of the values), `ScaleRun.v`, `ScaleEI.v`, `ScaleSOP.v` | exact arithmetic; same random draws in both runs |
| two runs side by side (C67, C68) | `SyncOrder.v`, `SyncSRBF.v`, `SyncEI.v` (two schedules of a synchronous run); `ResumeKill.v`, `ResumeSerial.v`, `ResumeInst.v` (resumed and killed run) | same random draws in both runs |
| `strategy/random_strategy.py` | `RandomStrat.v` | POAP's `RetryStrategy` from its documentation |
| `controller/controller.py` | `Checkpoint.v`, `Strategy.v` (resume), `BestPoint.v` (the returned record) | POAP's controllers: arbitrary environment, except the choice of the best record; `dill` is assumed to load what it dumped; `os.rename` is assumed atomic |
| `utils.py` | `Box.v`, `FloatBox.v`, `GA.v`, `GAFrac.v`, `Pareto.v`, `Inputs.v`, `Cand.v`, `FloatUnit.v`, `Progress.v` | exact arithmetic except `FloatBox.v`, `FloatUnit.v`; matplotlib inside `progress_plot` |
| `auxiliary_problems/*` | `Cand.v`, `GA.v`, `EIStrat.v` | numpy random numbers and `truncnorm` are oracles |
| `experimental_design/*` | `Design.v` | pyDOE2 `lhs` (arbitrary generator); `matrix_rank` is a parameter |
| `surrogate/rbf.py`, `surrogate.py`, kernels, tails, output transformations | `Lin.v`, `RBF.v`, `RBFFit.v`, `RBFDeriv.v`, `PropSurr.v`, `RBFEquiv.v`, `SurrUnits.v` | real arithmetic in place of doubles; LU/Cholesky are concrete Gallina algorithms over R, `LinAlgError` is raised when a pivot is not admissible |
| `surrogate/gp.py`, `poly.py` | `PropSurr.v`, `GPWrap.v` (standardisation of gp.py); fit/predict of scikit-learn as a parameter (C45, C63) | scikit-learn itself |
| `surrogate/mars.py` | `Mars.v` | py-earth (any model of the documented form; its derivative by the product rule) |
| `optimization_problems/*` | `Problems.v`, `Hartmann.v`, over R | Michalewicz has no declared minimum |

Not expressible here: run time, memory, thread interleavings inside POAP (its callbacks run in one thread; the model
takes any order of callbacks), numerical conditioning of the RBF system.

## 6. Findings in the unchanged code

1. `use_restarts=False` and a converged run: `propose_action` answers `None` for ever (C11).
2. `terminate` is never reset, so an aborted evaluation after the stopping test is not replaced (C03, C17).
3. `remove_pending` deletes all rows equal to the point (C05).
4. SRBF `adjust_step` opens a new event epoch while evaluations are pending: they never enter the surrogate (C07).
5. The phase becomes 2 while initial evaluations are pending: initial points lost (C08), not re-queued on resume (C16),
   negative DYCORS evaluation count (C23).
6. Extra points with value `inf` are treated as known (C56); known extra points are not used as center (C57).
7. `save` fails if the checkpoint name contains a directory (C18).
8. The first adaptive step of SRBF always counts as an improvement (C21).
9. SOP forgets ranks after the first selection (C30) and raises on eight kinds of legal schedules (C31).
10. `weighted_distance_merit` returns candidate 0 when no admissible candidate is left (C32); DYCORS never forces
    the last coordinate (C34); a `subset` other than `0..k-1` is handled wrongly (C33).
11. The start-population test of the GA is inverted (C36), so infeasible results are possible (C35).
12. `ei_ga` with `ei_tol` 0 does not enforce the distance; `lcb_target=None` raises `TypeError` (C37).
13. `from_unit_box` can exceed the upper bound in floating point (C39).
14. `round_vars` with fractional bounds returns non-integers (C41).
15. `check_opt_prob` accepts duplicate integer indices (C53); `check_input` accepts non-positive `max_evals` (C54).
16. `RBFInterpolant` with only one of kernel/tail given silently uses the default pair (C50).
17. Branin's declared minimizer is outside its domain (C52); Schwefel's declared minimum is off by more than 1e-3 for
    dim ≥ 79 (C51); docstrings of Zakharov and Exponential state a wrong optimum; SLHD with one point divides by zero.
18. `nd_front` with no points returns `([0], [])` (C24).
19. After a `LinAlgError` during a fit the RBF surrogate raises on every later prediction until reset (C45, C46).
20. `predict_deriv` clips distances below eps, so the gradient is inexact for 0 < r < eps (C48).
21. The linear kernel is conditionally *negative* definite, so adding `eta I` works against it: with the default eta two points at (unit box) distance eta make the system singular (C60).
22. Asynchronous SRBF/DYCORS with more workers than design points raises at the first surplus request; a design point that is killed twice, or is outstanding at a crash after a request was answered `None`, is lost and the strategy then raises at every request; an infinite objective value makes the default surrogate raise (C61).
23. GPRegressor stops standardising below a spread of 1e-6: `predict_std` then no longer follows the scale of the values (C63).
24. Adding a constant to the objective changes runs of SRBF and DYCORS, because improvements are measured relative to |fbest| (C66); near a zero optimum every tiny improvement counts, far from zero almost none does.
25. If the checkpoint callback runs before the callback of the strategy (`CheckpointController` adds its own when the record is created, the strategy when the proposal is accepted), the evaluation that has just finished is not in the snapshot and an adaptive point is lost with its value (C68).
26. `MARSInterpolant.predict_deriv` ignores all points but the first; with py-earth's three-dimensional result it returns a square matrix instead of a gradient (C70).
27. The minimum distance 0.001*sqrt(dim) of SRBF, DYCORS and SOP is not relative to the box (EI and LCB use 0.001 times its diameter): runs depend on the unit of length, and in a small box every batch consists of copies of the first candidate, whatever the surrogate predicts (C71).
28. GeneticAlgorithm.optimize with integer variables: the best individual is put into row 0 of the rounded population only; the unrounded population that is used for reproduction keeps another individual in row 0, which takes part in the tournaments with the value of the best one, so the best individual never has children (C73).
29. The truncated normal candidates are not clipped after the draw: in doubles `z * sigma + xbest`
    for `z` at the truncation limit can be outside the box by an ulp (box [0,1], radius 0.2, incumbent
    0.89 gives -1.1e-16), so an objective with a domain equal to the box (log, sqrt) can be called
    outside it (C75_candidate_in_box_refuted).
30. progress_plot: `try: import matplotlib.pyplot ... finally:` has no except clause, so without
    matplotlib the ImportError leaves the function and the message of utils.py:177 is unreachable; it also
    raises ValueError while no evaluation is completed or when a value is inf (C76).

## 7. Testing the theorems

`seeded/LOG.jsonl` records the mutation campaigns: one line per edited definition, with the claim broken, the theorems
that failed and those tightened afterwards.
