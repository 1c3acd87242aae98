{
 "claims": [
  {
   "property": "C01",
   "status": "proved",
   "theorems": [
    "C01_budget"
   ],
   "note": ""
  },
  {
   "property": "C02",
   "status": "proved",
   "theorems": [
    "C02_terminate_only_when_idle",
    "C02_stop_is_final",
    "C02_nothing_after_terminate"
   ],
   "note": ""
  },
  {
   "property": "C03",
   "status": "partial",
   "theorems": [
    "C03_C17_full_budget_partial",
    "C03_no_abort",
    "C03_completed_at_terminate",
    "C03_full_budget_refuted"
   ],
   "note": "Proved: without aborts after the stopping criterion is observed exactly max_evals evaluations complete; exact loss formula otherwise. The second half of the property is false of the code (terminate is sticky): C03_full_budget_refuted."
  },
  {
   "property": "C04",
   "status": "proved",
   "theorems": [
    "C04_history",
    "C04_each_once"
   ],
   "note": ""
  },
  {
   "property": "C05",
   "status": "partial",
   "theorems": [
    "C05_pending_count",
    "C05_xpend_partial",
    "C05_xpend_refuted"
   ],
   "note": "pending_evals exact in all runs; Xpend exact if no point is proposed while an equal one is outstanding, always a sub-multiset; false with repeated points: C05_xpend_refuted."
  },
  {
   "property": "C06",
   "status": "proved",
   "theorems": [
    "C06_restart_isolation",
    "C06_restart_resets"
   ],
   "note": ""
  },
  {
   "property": "C07",
   "status": "partial",
   "theorems": [
    "C07_surrogate_complete_partial",
    "C07_srbf_sync",
    "C07_surrogate_complete_refuted"
   ],
   "note": "Proved for every strategy that opens a new event epoch only when idle, in particular synchronous SRBF/DYCORS; refuted for asynchronous SRBF/DYCORS."
  },
  {
   "property": "C08",
   "status": "partial",
   "theorems": [
    "C08_queued_points_conserved_partial",
    "C08_initial_queue",
    "C08_C09_requeue",
    "C08_design_lost_refuted"
   ],
   "note": "Exact conservation law (queued = in queue + outstanding + evaluated + given up); false that design points are never given up."
  },
  {
   "property": "C09",
   "status": "proved",
   "theorems": [
    "C09_batch_barrier",
    "C09_batch_complete",
    "C08_C09_requeue"
   ],
   "note": ""
  },
  {
   "property": "C10",
   "status": "proved",
   "theorems": [
    "C10_async_always_proposes",
    "C10_srbf_async_always_proposes",
    "C10_ei_async_always_proposes",
    "C10_lcb_async_always_proposes"
   ],
   "note": "Hypothesis generates (the candidate search returns at least one point) is discharged for SRBF/DYCORS, EI and LCB."
  },
  {
   "property": "C11",
   "status": "partial",
   "theorems": [
    "C11_no_stall_partial",
    "C11_no_stall_refuted"
   ],
   "note": "Holds with use_restarts=True; refuted with use_restarts=False."
  },
  {
   "property": "C12",
   "status": "proved",
   "theorems": [
    "C12_serial_run_finishes",
    "C12_srbf_serial_run_finishes",
    "C12_ei_serial_run_finishes",
    "C12_lcb_serial_run_finishes",
    "C12_sop_serial_run_finishes"
   ],
   "note": "General theorem plus its instances for SRBF/DYCORS, EI, LCB and SOP."
  },
  {
   "property": "C13",
   "status": "proved",
   "theorems": [
    "C13_feasible",
    "C13_srbf",
    "C13_dycors",
    "C13_ei",
    "C13_lcb",
    "C13_sop",
    "C13_sop_rbf"
   ],
   "note": "General theorem relative to feasibility of designs and candidates; for SRBF, DYCORS, EI, LCB and SOP with the modelled searches, relative to feasibility of the designs only (designs: C41, C44)."
  },
  {
   "property": "C14",
   "status": "proved",
   "theorems": [
    "C14_save_atomic",
    "C14_crash_then_resume",
    "C14_never_corrupt"
   ],
   "note": "File-system model; rename is atomic by assumption."
  },
  {
   "property": "C15",
   "status": "proved",
   "theorems": [
    "C15_resume"
   ],
   "note": ""
  },
  {
   "property": "C16",
   "status": "partial",
   "theorems": [
    "C16_resume_requeues_partial",
    "C16_design_survives_partial",
    "C16_resume_loses_design_refuted"
   ],
   "note": "Holds for snapshots in phase 1 without duplicate points; refuted for later snapshots."
  },
  {
   "property": "C17",
   "status": "partial",
   "theorems": [
    "C03_C17_full_budget_partial",
    "C17_resumed_budget_refuted"
   ],
   "note": "Holds if the crash happens before the stopping criterion is observed; refuted otherwise."
  },
  {
   "property": "C18",
   "status": "partial",
   "theorems": [
    "C18_run_refuses",
    "C18_resume_refuses",
    "C18_saved_under_name_partial",
    "C18_directory_refuted",
    "C18_snapshot_after_finish",
    "C18_snapshot_only_then",
    "C18_terminate_saved"
   ],
   "note": "Refuted for checkpoint names with a directory component."
  },
  {
   "property": "C19",
   "status": "proved",
   "theorems": [
    "C19_constants",
    "C19_radius_range",
    "C19_radius_start",
    "C19_radius_moves",
    "C19_failtol_in_doubles",
    "C19_radius_in_doubles"
   ],
   "note": "Radius on exact rationals starting at the double 0.2; proved: the double computations of failtol, of the radius and of its comparison with the minimum give exactly those values in every reachable state."
  },
  {
   "property": "C20",
   "status": "proved",
   "theorems": [
    "C20_steps_are_evaluations",
    "C20_step_rule",
    "C20_convergence"
   ],
   "note": ""
  },
  {
   "property": "C21",
   "status": "partial",
   "theorems": [
    "C21_improvement_rule_partial",
    "C21_improvement_in_doubles",
    "C21_first_step_refuted",
    "C21_small_improvement_drifts"
   ],
   "note": "The exact rule is proved; it ignores the initial design, so the property as stated is refuted. The rule is stated with exact arithmetic and 1/1000; C21_improvement_in_doubles: the test as evaluated in doubles (1e-3 is not 1/1000) agrees with it unless the new value is within 2^-52 of the best value from the threshold, and never accepts a value that is not smaller."
  },
  {
   "property": "C22",
   "status": "proved",
   "theorems": [
    "C22_weights_cycle"
   ],
   "note": ""
  },
  {
   "property": "C23",
   "status": "partial",
   "theorems": [
    "C23_probability",
    "C23_antitone",
    "C23_first",
    "C23_count_partial",
    "C23_count_refuted"
   ],
   "note": "Range and monotonicity proved over the reals wherever the formula is defined; the count it is evaluated at can be negative after a resume (C23_count_refuted)."
  },
  {
   "property": "C24",
   "status": "proved",
   "theorems": [
    "C24_nd_front"
   ],
   "note": "For N>=1; with no points nd_front returns index 0 (ex_C24_empty)."
  },
  {
   "property": "C25",
   "status": "proved",
   "theorems": [
    "C25_nd_sorting"
   ],
   "note": ""
  },
  {
   "property": "C26",
   "status": "proved",
   "theorems": [
    "C26_radius_rule"
   ],
   "note": "Over the reals."
  },
  {
   "property": "C27",
   "status": "proved",
   "theorems": [
    "C27_archive",
    "C27_centers",
    "C27_count",
    "C27_never_converges"
   ],
   "note": ""
  },
  {
   "property": "C28",
   "status": "proved",
   "theorems": [
    "C28_ranges",
    "C28_step",
    "C28_search",
    "C28_radius_in_doubles"
   ],
   "note": "Counters on naturals, radius on exact rationals; C28_radius_in_doubles shows that the radii are exactly the doubles that Python holds."
  },
  {
   "property": "C29",
   "status": "proved",
   "theorems": [
    "C29_center_selection"
   ],
   "note": "Given a complete table of ranks."
  },
  {
   "property": "C30",
   "status": "partial",
   "theorems": [
    "C30_first_selection_partial",
    "C30_ranks_forgotten",
    "C30_ranks_forgotten_sync",
    "C30_not_by_rank_refuted"
   ],
   "note": "Only the first selection of centers uses the ranks; afterwards the rank table is empty, so the property is refuted for later steps."
  },
  {
   "property": "C31",
   "status": "partial",
   "theorems": [
    "C31_sync_never_fails_partial",
    "C31_async_never_fails_partial",
    "C31_small_batch_refuted",
    "C31_many_workers_refuted",
    "C31_rejects_leak_centers_refuted",
    "C31_kill_in_batch_refuted",
    "C31_kill_in_design_refuted",
    "C31_duplicate_points_refuted",
    "C31_early_worker_refuted",
    "C31_resume_refuted"
   ],
   "note": "Proved (1) for synchronous runs with batch size = ncenters, no aborted evaluations, no resume and pairwise distinct queued points (any workers, any rejections, any order of completions) and (2) for asynchronous runs without resume, with distinct points, if at each request served by a search the design is finished and fewer than ncenters adaptive proposals lack a value (any order of completions, any rejections and kills within that bound). Missing: the property as stated is false; eight other legal schedules on which SOP raises are exhibited."
  },
  {
   "property": "C32",
   "status": "proved",
   "theorems": [
    "C32_merit",
    "C32_spread",
    "C32_srbf",
    "C32_dycors",
    "C32_uniform"
   ],
   "note": "Over the reals extended with inf; if no admissible candidate is left index 0 is returned (this is part of the theorem). The last three lift the separation to the searches: evaluated points, pending points and earlier picks."
  },
  {
   "property": "C33",
   "status": "partial",
   "theorems": [
    "C33_srbf",
    "C33_uniform",
    "C33_dycors_partial",
    "C33_dycors_subset_refuted",
    "C33_dycors_permuted_refuted"
   ],
   "note": "DYCORS only for subset None or 0..len-1; other subsets refuted."
  },
  {
   "property": "C34",
   "status": "partial",
   "theorems": [
    "C34_always_perturbs",
    "C34_last_never_forced_refuted"
   ],
   "note": "Every candidate perturbs a coordinate; the last coordinate is never the forced one, so the second half is refuted."
  },
  {
   "property": "C35",
   "status": "partial",
   "theorems": [
    "C35_ga",
    "C35_initial_fractional",
    "C35_start_refuted"
   ],
   "note": "Proved for the built-in start populations (SLHD, LHD, random) and functions that never return nan; refuted for an accepted user-supplied start population."
  },
  {
   "property": "C36",
   "status": "partial",
   "theorems": [
    "C36_accepts_partial",
    "C36_feasible_rejected_refuted",
    "C36_infeasible_accepted_refuted"
   ],
   "note": "The test is inverted: the exact condition is proved, the property as stated is refuted for every problem."
  },
  {
   "property": "C37",
   "status": "proved",
   "theorems": [
    "C37_ei",
    "C37_lcb",
    "C37_ei_strategy",
    "C37_lcb_strategy",
    "C37_zero_tol_refuted",
    "C37_lcb_default_refuted"
   ],
   "note": "For the functions ei_ga/lcb_ga and for every batch generated in any run of EIStrategy/LCBStrategy. Limits: ei_tol = 0 does not enforce the distance, lcb_target=None raises."
  },
  {
   "property": "C38",
   "status": "proved",
   "theorems": [
    "C38_inverse",
    "C38_onto",
    "C38_increasing",
    "C38_matrix",
    "C38_to_unit_in_doubles",
    "C38_round_trip_in_doubles"
   ],
   "note": "Exact arithmetic for C38_inverse, C38_onto, C38_increasing and C38_matrix. In doubles: a point of the box is mapped into [0,1], weakly monotonically, the bounds exactly to 0 and 1, and mapping back returns it up to 2^-51 of its distance to the lower bound plus 2^-53 of its size; the other direction may leave the box by rounding (C39)."
  },
  {
   "property": "C39",
   "status": "partial",
   "theorems": [
    "C39_bounds_partial",
    "C39_upper_refuted"
   ],
   "note": "Binary64 arithmetic (Flocq): the lower bound always holds, the upper bound if ub-lb is exact; refuted in general ([-0.9, 0.2] maps 1.0 above 0.2)."
  },
  {
   "property": "C40",
   "status": "proved",
   "theorems": [
    "C40_unit_rescale",
    "C40_unit_rescale_float"
   ],
   "note": "Over the reals and in binary64 without overflow."
  },
  {
   "property": "C41",
   "status": "proved",
   "theorems": [
    "C41_round_vars",
    "C41_idempotent",
    "C41_fractional_bounds_refuted"
   ],
   "note": "Integrality and idempotence need integral bounds of the integer variables; shown false otherwise."
  },
  {
   "property": "C42",
   "status": "proved",
   "theorems": [
    "C42_slhd",
    "C42_unit_box"
   ],
   "note": "Exact levels over the reals, for every draw and num_pts >= 2 (num_pts = 1 divides by zero)."
  },
  {
   "property": "C43",
   "status": "proved",
   "theorems": [
    "C43_two_factorial"
   ],
   "note": ""
  },
  {
   "property": "C44",
   "status": "proved",
   "theorems": [
    "C44_best_valid_design",
    "C44_slhd_feasible",
    "valid_distinct"
   ],
   "note": "numpy.linalg.matrix_rank is a parameter; pyDOE2 generators are covered by C44_best_valid_design as arbitrary generators."
  },
  {
   "property": "C45",
   "status": "partial",
   "theorems": [
    "C45_contents",
    "C45_no_refit",
    "C45_sklearn",
    "C45_sklearn_no_refit",
    "C46_same_contents",
    "C45_stuck",
    "C45_stuck_refuted"
   ],
   "note": "Contents and refit rule hold in every history; predictions reflect all data for the scikit-learn surrogates always and for RBF as long as no fit raised LinAlgError since the last reset. After such an error RBF never recovers until reset: C45_stuck, C45_stuck_refuted."
  },
  {
   "property": "C46",
   "status": "partial",
   "theorems": [
    "C46_predict",
    "C46_same_contents",
    "C46_incremental_partial",
    "C45_stuck_refuted"
   ],
   "note": "Exact arithmetic with concrete LU/Cholesky. Needs that no earlier fit since the last reset raised LinAlgError; otherwise false (C45_stuck_refuted)."
  },
  {
   "property": "C47",
   "status": "proved",
   "theorems": [
    "C47_interpolation",
    "C47_exact",
    "C47_reproduction",
    "C47_affine"
   ],
   "note": "Exact arithmetic."
  },
  {
   "property": "C48",
   "status": "proved",
   "theorems": [
    "C48_gradient"
   ],
   "note": "Every directional derivative, all kernels and tails; points closer than eps=2^-52 to a data point (but not on it) are excluded, because the code clips these distances."
  },
  {
   "property": "C49",
   "status": "proved",
   "theorems": [
    "C49_median_capping"
   ],
   "note": ""
  },
  {
   "property": "C50",
   "status": "partial",
   "theorems": [
    "C50_both_given_partial",
    "C50_one_omitted_refuted"
   ],
   "note": "If only one of kernel/tail is given it is silently ignored."
  },
  {
   "property": "C51",
   "status": "partial",
   "theorems": [
    "C51_minimum_partial",
    "C51_exact_minimum",
    "C51_schwefel_refuted",
    "C51_schwefel_lower"
   ],
   "note": "All 18 problems with a declared minimum, over the reals, all dimensions; Schwefel up to dimension 78, refuted from 79 on. Hartmann by a certificate checked in the kernel."
  },
  {
   "property": "C52",
   "status": "partial",
   "theorems": [
    "C52_feasible_partial",
    "C52_branin_refuted"
   ],
   "note": "All problems except Branin, whose declared minimizer is outside the domain."
  },
  {
   "property": "C53",
   "status": "partial",
   "theorems": [
    "C53_accepted_partial",
    "C53_wellformed_accepted",
    "C53_duplicates_refuted",
    "C53_benchmarks_accepted"
   ],
   "note": "Duplicate indices in int_var are accepted."
  },
  {
   "property": "C54",
   "status": "partial",
   "theorems": [
    "C54_batch_required",
    "C54_base_accepts_partial",
    "C54_max_evals_refuted",
    "C54_random_refuted",
    "C54_ncenters_refuted",
    "C54_sop_accepts_partial",
    "C54_srbf_accepts_partial",
    "C54_gp_required"
   ],
   "note": "Which inputs are accepted is characterised exactly; negative or zero int max_evals (and ncenters, and RandomStrategy max_evals) are accepted."
  },
  {
   "property": "C55",
   "status": "proved",
   "theorems": [
    "C55_conservation",
    "C55_in_box",
    "C55_terminate"
   ],
   "note": "POAP RetryStrategy modelled from its documentation."
  },
  {
   "property": "C56",
   "status": "partial",
   "theorems": [
    "C56_extra_points_partial",
    "C56_restart_no_extras",
    "C56_inf_is_unknown_refuted"
   ],
   "note": "nan handled as documented; inf is not."
  },
  {
   "property": "C57",
   "status": "partial",
   "theorems": [
    "C57_center_partial",
    "C57_known_extra_refuted",
    "C57_async_refuted"
   ],
   "note": "Holds in synchronous mode for the evaluations of the run; refuted for extra points with known value and in asynchronous mode."
  },
  {
   "property": "C58",
   "status": "proved",
   "theorems": [
    "C58_counters"
   ],
   "note": ""
  },
  {
   "property": "C59",
   "status": "proved",
   "theorems": [
    "C59_solvable",
    "C59_default",
    "C59_incremental"
   ],
   "note": "Over the reals. Conditional positive definiteness of the cubic, thin plate spline and linear kernels is proved in PosDef.v."
  },
  {
   "property": "C60",
   "status": "partial",
   "theorems": [
    "C60_linear_refuted",
    "C60_linear_partial"
   ],
   "note": "Refuted for the default eta: two points at (unit box) distance eta make the system singular. Proved for eta = 0."
  },
  {
   "property": "C61",
   "status": "partial",
   "theorems": [
    "C61_srbf_no_call_raises",
    "C61_srbf_enough_data",
    "C61_dycors_enough_data",
    "C61_srbf_run",
    "C61_srbf_serial",
    "C61_srbf_object",
    "C61_dycors_no_call_raises",
    "C61_dycors_run",
    "C61_dycors_serial",
    "C61_dycors_object",
    "C61_async_refuted",
    "C61_inf_refuted",
    "C61_killed_refuted",
    "C61_resume_refuted"
   ],
   "note": "Proved for synchronous strategies, in every state of every run as long as the process was not resumed and no evaluation of a current design point was given up. Refuted otherwise: asynchronous mode with more workers than design points raises, a design point can be lost by two kills or by crash and resume, after which every request raises; an infinite value raises."
  },
  {
   "property": "C62",
   "status": "proved",
   "theorems": [
    "C62_expected_improvement",
    "C62_filter",
    "C62_positive_iff",
    "C62_bounds",
    "C62_monotone",
    "C62_textbook",
    "C62_lcb_quantile"
   ],
   "note": "scipy.stats.norm.pdf/cdf are the normal density and any function that is its distribution function (existence and total mass 1, i.e. the Gaussian integral, are proved: cdf0_is_cdf, normal_pdf_total). predict_std = 0 (0/0 in numpy) is outside the theorem."
  },
  {
   "property": "C63",
   "status": "proved",
   "theorems": [
    "C63_standardised",
    "C63_affine",
    "C63_threshold_refuted"
   ],
   "note": "exact reals; GaussianProcessRegressor.fit/predict are parameters (any functions of points and standardised values)."
  },
  {
   "property": "C64",
   "status": "proved",
   "theorems": [
    "C64_rbf",
    "C64_sklearn"
   ],
   "note": "exact reals, non-degenerate boxes."
  },
  {
   "property": "C65",
   "status": "proved",
   "theorems": [
    "C65_transformations",
    "C65_order",
    "C65_affine",
    "C65_linear",
    "C65_history"
   ],
   "note": "exact reals."
  },
  {
   "property": "C66",
   "status": "proved",
   "theorems": [
    "C66_srbf",
    "C66_dycors",
    "C66_ei",
    "C66_lcb",
    "C66_gp",
    "C66_sop",
    "C66_sop_rbf",
    "C66_srbf_shift_refuted"
   ],
   "note": "exact reals/rationals; same random draws in both runs (the draws do not depend on the values). The statement excludes shifts for SRBF/DYCORS; C66_srbf_shift_refuted shows that this is needed."
  },
  {
   "property": "C67",
   "status": "partial",
   "theorems": [
    "C67_srbf",
    "C67_dycors",
    "C67_srbf_full",
    "C67_dycors_full",
    "C67_ei",
    "C67_lcb",
    "C67_ties_refuted"
   ],
   "note": "C67_ties_refuted shows that the unchanged code violates it for SRBF when two evaluated points have equal values; C67_srbf/C67_dycors (default RBF) and the _full versions (any surrogate insensitive to the order of its data) prove it when they are distinct; C67_ei/C67_lcb need no such condition. Accepted proposals only (no rejections or failures); SOP is not covered."
  },
  {
   "property": "C68",
   "status": "partial",
   "theorems": [
    "C68_resume_is_kill",
    "C68_crash_free",
    "C68_serial",
    "C68_nothing_finished_lost",
    "C68_strategies",
    "C68_unclean_refuted",
    "C68_save_first_refuted"
   ],
   "note": "C68_resume_is_kill covers clean snapshots (nothing running; or in the initial phase only points of the design running, no equal points at once; or no point of the design running in the adaptive phase), C68_serial shows that a serial controller only produces such snapshots. C68_unclean_refuted and C68_save_first_refuted show that the unchanged code violates the rest. C68_strategies: SRBF, DYCORS, EI, LCB and SOP meet the hypothesis that they never read the list of finished records."
  },
  {
   "property": "C69",
   "status": "proved",
   "theorems": [
    "C69_srbf",
    "C69_dycors",
    "C69_sop",
    "C69_srbf_rbf",
    "C69_dycors_rbf",
    "C69_sop_rbf"
   ],
   "note": "In asynchronous mode an evaluation that completes after a restart may be left out of the data (finding of C07), so data is a subsequence of the evaluations of the run there and equal to them in synchronous mode. Distances, predictions and the normal variables are arbitrary functions, the arithmetic is that of the real numbers. C69_srbf_rbf, C69_dycors_rbf and C69_sop_rbf are the same with the RBF surrogate in place of arbitrary predictions; ex_C69_sop_rbf is a run of SOP with that surrogate that generates a batch."
  },
  {
   "property": "C70",
   "status": "partial",
   "theorems": [
    "C70_history",
    "C70_continuous",
    "C70_gradient_flat_partial",
    "C70_gradient_partial",
    "C70_rows_refuted"
   ],
   "note": "py-earth is a parameter that may learn any model of the documented form. C70_gradient_flat_partial is the gradient at the first point if py-earth returned an array of size points x variables; C70_gradient_partial describes the answer for the three-dimensional array of py-earth. C70_rows_refuted shows that the unchanged code violates the property as stated."
  },
  {
   "property": "C71",
   "status": "partial",
   "theorems": [
    "C71_srbf",
    "C71_dycors",
    "C71_sop",
    "C71_srbf_origin",
    "C71_dycors_origin",
    "C71_sop_origin",
    "C71_ei",
    "C71_lcb",
    "C71_srbf_small_box_refuted",
    "C71_srbf_small_box_copies_refuted",
    "C71_dycors_small_box_refuted",
    "C71_dycors_small_box_copies_refuted",
    "C71_scale_refuted"
   ],
   "note": "C71_ei and C71_lcb: EIStrategy and LCBStrategy (genetic algorithm, Gaussian process wrapper, default or given minimum distance) are fully invariant under a change of origin and unit. C71_srbf, C71_dycors, C71_sop: full invariance if the minimum distance were scaled with the box; with the fixed minimum distance of the code the origin does not matter (C71_srbf_origin, C71_dycors_origin, C71_sop_origin) but the unit of length does (C71_scale_refuted; the small box theorems say what happens in a small box, for every run). The unchanged code violates the property as stated."
  },
  {
   "property": "C72",
   "status": "proved",
   "theorems": [
    "C72_srbf",
    "C72_dycors",
    "C72_sop",
    "C72_sop_rbf"
   ],
   "note": "Draws are the standard normal variables (clamped to the truncation range of the code). For DYCORS and SOP the draws must also perturb every coordinate of every candidate; each coordinate is perturbed with probability at least 1/dim (C23_probability). That the box of draws has a positive probability is not formalized (no probability theory in the model). The arithmetic is that of the real numbers."
  },
  {
   "property": "C73",
   "status": "partial",
   "theorems": [
    "C73_generations",
    "C73_parents_partial",
    "C73_winner_refuted"
   ],
   "note": "C73_generations describes every generation for all problems, with the unrounded positions of the individuals as a second list; C73_parents_partial: without integer variables the positions are the evaluated individuals, so every parent has the lowest value of its tournament; C73_winner_refuted: with an integer variable this is false in the unchanged code (population = new_population drops the best individual that was put into row 0 while its function value stays). Start populations are those drawn in the unit box (SLHD, LHD, Random); a start array is covered by C35/C36."
  },
  {
   "property": "C74",
   "status": "proved",
   "theorems": [
    "C74_sop_sync_no_call_raises",
    "C74_sop_sync_run",
    "C74_sop_async_no_call_raises",
    "C74_sop_serial"
   ],
   "note": "The RBF surrogate, the selection of centers and the candidate search are those of the model, nothing is assumed about them. The conditions are necessary in the unchanged code: C31 gives runs in which SOP raises because a point was queued twice, a request came before the decision on the last one, too many evaluations were under way, or after a resume; C61 runs in which the surrogate raises because values are infinite or the design was not evaluated."
  },
  {
   "property": "C75",
   "status": "partial",
   "theorems": [
    "C75_candidate_near_box",
    "C75_incumbent_on_bound",
    "C75_uniform_in_box",
    "C75_ga_clip_in_box",
    "C75_no_drift",
    "C75_candidate_in_box_refuted"
   ],
   "note": "As stated the property is false of the unchanged code: in the unit box with the initial radius 0.2 and the incumbents 0.89 and 0.11, draws at the limits passed to truncnorm give -1.1e-16 and 1.0000000000000002 (refuted, kernel-computed). Proved: np.random.uniform and the clipped individuals of the genetic algorithm never leave the box; a candidate leaves it by at most 2^-51 times the distance to the incumbent plus 2^-53 times the bound; a bound on which the incumbent lies is respected exactly; over any history of design points, uniform points, clipped individuals and candidates of candidates all proposed coordinates stay within one tolerance, 2^-50 (width + largest bound) plus an underflow term. Not modelled: how scipy draws the standardized value (any value between the limits is allowed) and integer coordinates (rounded and clipped afterwards, C41)."
  },
  {
   "property": "C76",
   "status": "partial",
   "theorems": [
    "C76_plot_contents",
    "C76_when_drawn_partial",
    "C76_missing_matplotlib_refuted"
   ],
   "note": "The contents of the plot are proved when all completed values are finite and there is one. As stated it is false of the unchanged code: it raises ValueError when no evaluation is completed or a value is infinite, and when matplotlib is missing the ImportError leaves the function (try with finally and no except), the documented message is never printed (all proved). matplotlib itself is represented only by whether it can be imported and by its requirement that axis limits are finite."
  },
  {
   "property": "C77",
   "status": "proved",
   "theorems": [
    "C77_records",
    "C77_best",
    "C77_crash_keeps_best"
   ],
   "note": "best_point is the minimum by value over the completed records of the controller (POAP). Extra points with a known value are not evaluations and have no record, so they are never returned. Values are compared by any irreflexive and transitive relation; nan is excluded."
  }
 ]
}