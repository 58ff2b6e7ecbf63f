{
 "claims": [
  {
   "property": "C01",
   "status": "proved",
   "theorems": [
    "C01_indexlist_is_ordered_set",
    "C01_remove_keeps_order",
    "C01_swap_exchanges"
   ],
   "note": "Refinement to an insertion-ordered list for every operation sequence; look-ups restricted to numbers not below all stored ones (see C02)."
  },
  {
   "property": "C02",
   "status": "proved",
   "theorems": [
    "C02_lookup_in_bounds_refuted",
    "C02_getIndex_defined_iff",
    "C02_isMember_defined_iff",
    "C02_removeNumber_defined_iff",
    "C02_swapNumbers_defined",
    "C02_stored_lookups_in_bounds"
   ],
   "note": "The code violates the property (reads iSort[-1]); the exact guard is proved."
  },
  {
   "property": "C03",
   "status": "proved",
   "theorems": [
    "C03_bounds_partition",
    "C03_setupAll",
    "C03_setupAll_again"
   ],
   "note": "For every operation sequence within the call contract; C04 shows the contract is needed."
  },
  {
   "property": "C04",
   "status": "proved",
   "theorems": [
    "C04_misuse_rejected_refuted",
    "C04_repeated_setup_rejected"
   ],
   "note": "The code violates the property; rejected cases proved to leave the object unchanged."
  },
  {
   "property": "C05",
   "status": "proved",
   "theorems": [
    "C05_constraints_partition",
    "C03_setupAll",
    "C03_setupAll_again"
   ],
   "note": "As C03 for Constraints."
  },
  {
   "property": "C06",
   "status": "proved",
   "theorems": [
    "C06_shift",
    "C06_rotate",
    "C06_bad_offset_unchanged",
    "C06_error_atomic_refuted"
   ],
   "note": "Success semantics proved; atomicity on error is violated by the code."
  },
  {
   "property": "C07",
   "status": "proved",
   "theorems": [
    "C07_indexlist_copy",
    "C07_working_set_copy",
    "C07_options_copy"
   ],
   "note": "Independence holds by value semantics of the model; the copy loops are modelled."
  },
  {
   "property": "C08",
   "status": "proved",
   "theorems": [
    "C08_copy_loses_snapshot_refuted",
    "C08_copy_constructor_ub",
    "C08_assign_same_dimensions"
   ],
   "note": "The code violates the property: nV/nC are not copied. Assignment between equal dimensions is correct; the copy constructor is characterised."
  },
  {
   "property": "C09",
   "status": "proved",
   "theorems": [
    "C09_flipper_round_trip"
   ],
   "note": ""
  },
  {
   "property": "C10",
   "status": "proved",
   "theorems": [
    "C10_ensureConsistency",
    "C10_others_untouched",
    "C10_double_refuted"
   ],
   "note": "Proved over the reals with any admissible machine constants; over binary64 NaN inputs escape (refuted)."
  },
  {
   "property": "C11",
   "status": "proved",
   "theorems": [
    "C11_presets_consistent",
    "C11_presets_consistent_double",
    "C11_presets_independent"
   ],
   "note": "Over reals and, by computation, over binary64."
  },
  {
   "property": "C12",
   "status": "proved",
   "theorems": [
    "C12_report_preserves_code",
    "C12_macros"
   ],
   "note": ""
  },
  {
   "property": "C13",
   "status": "proved",
   "theorems": [
    "C13_residuals",
    "C13_gap",
    "C13_zero_certifies",
    "C13_zero_residual_refuted"
   ],
   "note": "Refuted as stated: multipliers at most 1e3*EPS, multipliers of absent bounds and (with a working set) wrong signs are not seen. The positive theorem has the exact guard; C13_residuals characterises all three numbers."
  },
  {
   "property": "C14",
   "status": "proved",
   "theorems": [
    "C14_feasibility_residual"
   ],
   "note": ""
  },
  {
   "property": "C15",
   "status": "proved",
   "theorems": [
    "C15_simple_status"
   ],
   "note": ""
  },
  {
   "property": "C16",
   "status": "proved",
   "theorems": [
    "C16_rows",
    "C16_feasible_set",
    "C16_feasible_set_refuted"
   ],
   "note": "Refuted for unsupported norm types and for rows of norm at most EPS (the constraint is erased); the positive theorem excludes these."
  },
  {
   "property": "C17",
   "status": "proved",
   "theorems": [
    "C17_getNorm",
    "C17_norm_axioms"
   ],
   "note": ""
  },
  {
   "property": "C18",
   "status": "proved",
   "theorems": [
    "C18_times",
    "C18_transTimes",
    "C18_padding_refuted"
   ],
   "note": "Refuted when the leading dimension differs from the number of columns: the products stride by nCols."
  },
  {
   "property": "C19",
   "status": "proved",
   "theorems": [
    "C19_times_compressed",
    "C19_transTimes"
   ],
   "note": ""
  },
  {
   "property": "C20",
   "status": "proved",
   "theorems": [
    "C20_uncompressed",
    "C20_minus_one",
    "C20_uncompressed_refuted"
   ],
   "note": "Refuted for beta=-1, where the code reads y[j] in place of y[irows->number[j]]; C20_minus_one states what it computes."
  },
  {
   "property": "C21",
   "status": "proved",
   "theorems": [
    "C21_sparse",
    "C21_sprow"
   ],
   "note": "SymSparseMat shares SparseMatrix's constructor and full()."
  },
  {
   "property": "C22",
   "status": "proved",
   "theorems": [
    "C22_sparse_times",
    "C22_sparse_transTimes",
    "C22_sprow_times",
    "C22_sprow_transTimes",
    "C22_sparse_times_idx",
    "C22_sparse_transTimes_idx",
    "C22_sprow_times_idx",
    "C22_sprow_transTimes_idx",
    "C22_sparse_uncompressed_refuted",
    "C22_sprow_uncompressed_refuted",
    "C22_sparse_multi_refuted"
   ],
   "note": "Refuted for uncompressed results (SparseMatrix with beta<>0, SparseMatrixRow with a column list) and for several right-hand sides without a column list; proved for all other uses."
  },
  {
   "property": "C23",
   "status": "proved",
   "theorems": [
    "C23_dense",
    "C23_sparse",
    "C23_sprow"
   ],
   "note": ""
  },
  {
   "property": "C24",
   "status": "proved",
   "theorems": [
    "C24_dense_bilinear",
    "C24_symmetric",
    "C24_sparse_bilinear",
    "C24_sparse_bilinear_refuted"
   ],
   "note": "Refuted for SymSparseMat when yLD differs from the number of vectors: only the first xN*xN positions are cleared."
  },
  {
   "property": "C25",
   "status": "proved",
   "theorems": [
    "C25_dense",
    "C25_sparse",
    "C25_sprow",
    "C25_sparse_createDiagInfo",
    "C25_sprow_createDiagInfo",
    "C25_sparse_partial_refuted",
    "C25_sparse_offdiag_refuted"
   ],
   "note": "Refuted for sparse matrices with missing diagonal entries: partial modification, or modification of an off-diagonal entry with SUCCESSFUL_RETURN. Proved when every diagonal entry is stored, as it is for matrices built by the constructors from dense arrays (C21)."
  },
  {
   "property": "C26",
   "status": "proved",
   "theorems": [
    "C26_dense_getRow",
    "C26_dense_getCol",
    "C26_dense_diag",
    "C26_dense_isDiag",
    "C26_dense_getRowNorm1",
    "C26_dense_getRowNorm",
    "C26_sparse_getRow",
    "C26_sparse_getCol",
    "C26_sparse_diag",
    "C26_sparse_isDiag",
    "C26_sparse_getRowNorm1",
    "C26_sparse_getRowNorm",
    "C26_sprow_getRow",
    "C26_sprow_getCol",
    "C26_sprow_diag",
    "C26_sprow_isDiag",
    "C26_sprow_getRowNorm1",
    "C26_sprow_getRowNorm",
    "C26_sparse_getRowNorm_refuted",
    "C26_null_list_refuted",
    "C26_sprow_getCol_refuted"
   ],
   "note": "Refuted for SparseMatrix::getRowNorm in the 1-norm and for getRow/getCol with a null index list and alpha<>1; isDiag of the sparse classes is structural."
  },
  {
   "property": "C27",
   "status": "proved",
   "theorems": [
    "C27_dpotrf"
   ],
   "note": ""
  },
  {
   "property": "C28",
   "status": "proved",
   "theorems": [
    "C28_computeGivens",
    "C28_applyGivens",
    "C28_annihilate_refuted"
   ],
   "note": "A negligible second component (at most ZERO) is left as it is instead of being annihilated."
  },
  {
   "property": "C29",
   "status": "proved",
   "theorems": [
    "C29_backsolveR",
    "C29_zero_pivot_refuted"
   ],
   "note": "In double precision a zero pivot with zero right-hand side passes the test and yields NaN with SUCCESSFUL_RETURN."
  },
  {
   "property": "C30",
   "status": "proved",
   "theorems": [
    "C30_backsolveT"
   ],
   "note": ""
  },
  {
   "property": "C31",
   "status": "proved",
   "theorems": [
    "C31_results",
    "C31_results_refuted"
   ],
   "note": "Refuted: isSolved and the solution getters also answer after a hotstart that was stopped (QPS_HOMOTOPYQPSOLVED with SUCCESSFUL_RETURN for contradictory bounds). C31_results is the exact relation between return value, status and getters for every legal history of QProblemB, every arithmetic."
  },
  {
   "property": "C32",
   "status": "proved",
   "theorems": [
    "C32_budget",
    "C32_budget_refuted"
   ],
   "note": "Refuted: a failing refactorisation and the far-bound loop report a wrong number of working set changes. C32_budget states the exact budget relation for QProblemB, every arithmetic."
  },
  {
   "property": "C33",
   "status": "proved",
   "theorems": [
    "C33_performRatioTest",
    "C33_step"
   ],
   "note": "performRatioTest (shared by QProblemB and QProblem) for every index list and positive epsDen, and the whole ratio test of QProblemB::performStep over the primal and dual candidates; exact arithmetic."
  },
  {
   "property": "C34",
   "status": "proved",
   "theorems": [
    "C34_step_direction",
    "C34_guard",
    "C34_unguarded_refuted",
    "C67_step_direction"
   ],
   "note": "Exact arithmetic, every Hessian type and storage, every settled working set with an exact factor: on success H dx + dg = dy, fixed variables move with their bounds, free multipliers stay. The only other outcome is RET_STEPDIRECTION_FAILED_CHOLESKY. Guard: a regularised zero Hessian needs epsIterRef > 0, which setOptions guarantees (C34_guard); C34_unguarded_refuted shows the guard is needed. These three are about QProblemB; C67_step_direction is QProblem's version, with the terms of the constraints, for every working set reached by its own operations."
  },
  {
   "property": "C35",
   "status": "proved",
   "theorems": [
    "C35_homotopy",
    "C37_creep_refuted",
    "C37_equalities_refuted"
   ],
   "note": "Exact arithmetic, every strictly convex Hessian, every start that is optimal up to del, every number of iterations: after every iteration of solveQP that changed the working set the pair is exactly optimal for the intermediate QP and lies on its working set. Guard: drift correction in every iteration (default), enableEqualities off (default), two-sided bounds (as with far bounds, the default), a start within the ratio-test tolerance epsNum. Without the guard false: C37_creep_refuted (hotstarts that drift below the ratio-test tolerance add up), C37_equalities_refuted."
  },
  {
   "property": "C36",
   "status": "proved",
   "theorems": [
    "C36_auxiliary",
    "C36_QProblem",
    "C36_refuted",
    "C36_small_multiplier_refuted",
    "C36_equality_refuted"
   ],
   "note": "QProblemB and QProblem. False for inconsistent guesses: C36_refuted (guessed multiplier 5 with an empty working set: init's preparation succeeds with a non-optimal pair) and C36_small_multiplier_refuted (|y| <= EPS without guessed working set). Proved over the reals: every guess gives a stationary, primal feasible pair on its working set, and an optimal one exactly when the guess is `fitting'. The Hessian is the one the object stores after preparation (possibly regularised). C36_QProblem: the same with constraints (whenever the preparation succeeds, ramping off, fresh working sets; drift and ramping afterwards are C41/C42), including the slacks; a further counterexample with constraints is C36_equality_refuted (a linearly dependent equality guessed at its upper limit)."
  },
  {
   "property": "C37",
   "status": "proved",
   "theorems": [
    "C37_hotstart",
    "C37_init",
    "C37_guess_refuted",
    "C37_equalities_refuted",
    "C37_crossed_refuted",
    "C37_creep_refuted"
   ],
   "note": "QProblemB over the reals, every storage, every number of iterations and far bound rounds: a successful hotstart or init returns the unique minimiser of a QP with the Hessian in use whose gradient and bounds are the requested ones up to the termination tolerance and a slack of ratio-test tolerances; the multipliers are right up to that slack and the object is again a valid start. With far bounds a bound that was not requested may still be active at the far bound when the termination tolerance is coarser than the test for active far bounds (true of the defaults), stated exactly by far_left. As stated the property is false outside the guard, shown by four runs that end with SUCCESSFUL_RETURN and QPS_SOLVED: inconsistent guess, enableEqualities, crossed bounds, drift over several hotstarts."
  },
  {
   "property": "C38",
   "status": "proved",
   "theorems": [
    "C38_contradictory",
    "C38_contradictory_init",
    "C38_contradictory_refuted"
   ],
   "note": "Refuted: a hotstart with crossed bounds returns SUCCESSFUL_RETURN with isSolved unchanged. Positive theorems: infeasible flag set and init returns the infeasibility code."
  },
  {
   "property": "C39",
   "status": "proved",
   "theorems": [
    "C39_addBound",
    "C39_removeBound",
    "C39_sequences"
   ],
   "note": "Exact arithmetic, ZERO >= 0 arbitrary. The Hessian must be symmetric and strongly convex with modulus above ZERO^2, because Givens rotations leave entries of magnitude at most ZERO. Covers matrices (dense and, for ZERO = 0, sparse), identity and regularised zero Hessians."
  },
  {
   "property": "C40",
   "status": "proved",
   "theorems": [
    "C40_flip",
    "C40_curvature"
   ],
   "note": "C40_flip holds in every arithmetic. C40_curvature (exact arithmetic) says when the flip happens: exactly when the smallest curvature along the freed direction is at most epsFlipping."
  },
  {
   "property": "C41",
   "status": "proved",
   "theorems": [
    "C41_drift_correction",
    "C41_QProblem",
    "C41_refuted"
   ],
   "note": "QProblemB and (C41_QProblem, with constraints, in the three storage formats of A) QProblem, where the stored distances Ax_l, Ax_u become right as well. Proved over the reals for bounds of type BOUNDED and EQUALITY (others must be right already); C41_refuted: types UNBOUNDED, DISABLED and UNKNOWN are not corrected."
  },
  {
   "property": "C42",
   "status": "proved",
   "theorems": [
    "C42_ramping",
    "C42_QProblem",
    "C42_refuted",
    "C42_slacks_refuted"
   ],
   "note": "QProblemB: proved over the reals for nV >= 2; C42_refuted: with one variable the binary64 model divides 0 by 0 and both bounds become NaN. QProblem: C42_QProblem for every nV >= 1 (its ramp has 2nV+2nC slots); the stored distances Ax_l, Ax_u become right except for equality constraints, C42_slacks_refuted."
  },
  {
   "property": "C43",
   "status": "proved",
   "theorems": [
    "C43_far_bounds",
    "C43_first",
    "C43_terminates",
    "C43_guard",
    "C43_verdict",
    "C43_refuted"
   ],
   "note": "QProblemB. Over the reals: updateFarBounds keeps every requested bound tighter than the far bound and never goes inside the far bound otherwise; the first far bound lies beyond all finite requested bounds; enlarging ends under the options setOptions enforces (growth above 1); for every number type an infeasible or unbounded verdict is only given with far bounds enabled and grown beyond INFTY. Refuted in binary64: with one variable and ramping the ramp value is 0/0 and an absent upper bound becomes NaN."
  },
  {
   "property": "C44",
   "status": "proved",
   "theorems": [
    "C44_init",
    "C44_hotstart",
    "C44_refuted",
    "C44_reinit_refuted"
   ],
   "note": "QProblemB, every number type, every call and return value. The matrix of the object is the caller's memory; it is unchanged exactly when regularisation is off or the Hessian type is zero or identity. Refuted otherwise: regulariseHessian adds to the caller's diagonal, and solving a QP with zero Hessian turns regularisation on for later calls. All other const arrays are only read (they are not part of the modelled state after being copied)."
  },
  {
   "property": "C45",
   "status": "proved",
   "theorems": [
    "C45_history",
    "C45_again",
    "C45_refuted",
    "C45_after_failure_refuted"
   ],
   "note": "QProblemB, every number type and every history. init on an initialised object gives the return value, iteration count, status and object (but for the number of hotstarts) that a new object of unknown Hessian type with the same options gives; the uninitialised scratch vector of the new object is taken to hold the same values. Refuted without the guards: reset forgets the Hessian type given to the constructor, and an object whose init failed is not reset, so the type found for the old matrix is kept."
  },
  {
   "property": "C46",
   "status": "proved",
   "theorems": [
    "C46_continue",
    "C46_budget_QProblem",
    "C46_accepted_QProblem",
    "C46_continues_QProblem",
    "C46_zero_budget_QProblem",
    "C46_init_QProblem",
    "C46_refuted_QProblem"
   ],
   "note": "QProblemB: proved for every budget. QProblem: refuted for budget zero (the status stays PERFORMINGHOMOTOPY, so every later hotstart is refused until a reset); for every budget of at least one the object is left in a state from which a further hotstart runs the same solver, without any assumption on state, data or arithmetic."
  },
  {
   "property": "C47",
   "status": "partial",
   "theorems": [
    "C47_TQ_exact_partial",
    "C47_ready",
    "C47_failed_removal_refuted",
    "C47_small_entry_refuted"
   ],
   "note": "Exact arithmetic, ZERO = 0, every dense or sparse matrix, every sequence of addConstraint, addBound, removeConstraint, removeBound and refactorisations, with and without the independence test and the exchange it triggers. Refuted otherwise: a removal that fails has already rotated T and Q, and entries of magnitude at most ZERO are not rotated away. With the expensive independence test (enableFullLITests), which trusts R, the sequences are those of C48, whose theorem gives both. Missing: dropping of infeasible constraints and the zero curvature exchange of removals."
  },
  {
   "property": "C48",
   "status": "partial",
   "theorems": [
    "C48_Cholesky_exact_partial",
    "C48_first_factorisation",
    "C48_refactorisation_refuted",
    "C48_forced_removal_refuted"
   ],
   "note": "Same sequences as C47, with either independence test, for a positive definite Hessian, or any symmetric one if removals may flip and the independence tolerance is 0; no operation has undefined behaviour. Refuted: refactorising with an empty working set factorises H although Q has been rotated, and a removal that may not flip stores 100 EPS when the curvature vanishes. Missing: as for C47."
  },
  {
   "property": "C49",
   "status": "proved",
   "theorems": [
    "C49_scaling",
    "C49_exact",
    "C49_accepted",
    "C49_full_scaling",
    "C49_full_sound",
    "C49_refuted"
   ],
   "note": "Cheap test, every state reached by working set changes, exact arithmetic. Refuted as stated: the test compares |a'z| with eps|a|^2, so a long row is taken for dependent. Multiplying the row by c changes the verdict exactly as multiplying the tolerance by c; with tolerance 0 the verdict is linear independence whatever the scaling; an accepted row stays accepted if made shorter. The optional full test (enableFullLITests) does not depend on the scaling (C49_full_scaling, with R up to date, T without diagonal entries up to EPS, curvature on the null space), accepts only independent rows and with tolerance 0 rejects only dependent ones (C49_full_sound)."
  },
  {
   "property": "C50",
   "status": "proved",
   "theorems": [
    "C50_dropped",
    "C50_equalities_stay",
    "C50_minimum",
    "C50_default_refuted",
    "C50_wrong_index_refuted"
   ],
   "note": "Refuted as stated: with the default priorities an equality constraint is dropped for an inequality, and because the type of constraint i is read for position i even a worse priority does not protect it. For every state reached by working set changes: exactly one status changes, chosen by priority among what the code sees; where position and number agree in type, equality constraints of worse priority stay and the dropped member has minimum priority."
  },
  {
   "property": "C51",
   "status": "proved",
   "theorems": [
    "C51_init_QProblemB",
    "C51_init_QProblem",
    "C51_hotstart_QProblem",
    "C51_hotstart_QProblemB",
    "C51_deref_QProblem",
    "C51_refuted_QProblem",
    "C51_wrong_solution_QProblem",
    "C51_wrong_solution_QProblemB"
   ],
   "note": "Refuted for hotstart without far bounds: QProblem dereferences lb and ub, and both classes ignore a NULL limit when they decide that the homotopy has ended, so dropping limits by NULL can return a non-optimal point as solved. init: NULL equals the infinite vector for every arithmetic, state and data. hotstart with far bounds, without ramping, exact arithmetic: NULL gives what the infinite vector gives."
  },
  {
   "property": "C52",
   "status": "proved",
   "theorems": [
    "C52_new_matrices_keep_optimal",
    "C52_new_matrices_keep_minimiser",
    "C52_wrong_solution_refuted",
    "C52_wrong_multipliers_refuted",
    "C52_failed_cholesky_refuted"
   ],
   "note": "Exact arithmetic, every optimal iterate with consistent slacks, every Hessian and constraint matrix in dense or sparse storage, with and without regularisation: when setupNewAuxiliaryQP succeeds, the unchanged iterate satisfies the optimality conditions of the stored problem (Hessian type detection may replace entries within EPS, and regVal is added when regularising). The _refuted theorems show that optimality of the auxiliary problem is not enough for the rest of the hotstart: after constraints became dependent, or after a factorisation that failed twice, it ends with success at a wrong point or with wrong multipliers."
  },
  {
   "property": "C53",
   "status": "proved",
   "theorems": [
    "C53_no_freed_data",
    "C53_file_hotstart_refuted"
   ],
   "note": "Every sequence of constructions, copies, assignments, inits, hotstarts and destructions of any number of objects, every outcome, if the caller keeps data an object may still refer to. Refuted for SQProblem::hotstart with files, which deletes the arrays of the matrices it has just installed."
  },
  {
   "property": "C54",
   "status": "proved",
   "theorems": [
    "C54_no_array",
    "C54_crossed_limits",
    "C54_no_matrix_refuted",
    "C54_no_hessian_refuted"
   ],
   "note": "Every number type and state. Holds for a missing constraint array and for crossed limits (only the infeasibility flag changes). Refuted for SQProblem with matrix objects: without a constraint matrix, or without a Hessian, the status stays PREPARINGAUXILIARYQP and every later hotstart is refused."
  },
  {
   "property": "C55",
   "status": "proved",
   "theorems": [
    "C55_factorisation",
    "C55_total",
    "C55_backsolve",
    "C55_probe_add",
    "C55_probe_del",
    "C55_small_entry_refuted",
    "C55_singular_probe_refuted"
   ],
   "note": "Real arithmetic with ZERO = 0, every history of appends, deletes, probes that are taken back, and resets, with any sparse solver that is exact or fails. Refuted with the real threshold ZERO (entries up to 1e-25 stay below the diagonal) and, for the predicted determinant, for a singular S."
  },
  {
   "property": "C56",
   "status": "proved",
   "theorems": [
    "C56_enough",
    "C56_unreadable",
    "C56_short_file_refuted",
    "C56_empty_file_refuted",
    "C56_no_file"
   ],
   "note": "Refuted: reading past the end of the file is not reported."
  },
  {
   "property": "C57",
   "status": "proved",
   "theorems": [
    "C57_getNumber_at_length_refuted",
    "C57_getNumber_elsewhere"
   ],
   "note": "The code violates the property at k = length; correct elsewhere."
  },
  {
   "property": "C58",
   "status": "proved",
   "theorems": [
    "C58_hessian_type",
    "C58_no_matrix",
    "C58_refuted",
    "C58_preset_refuted"
   ],
   "note": "QProblemB. Proved over the reals for dense symmetric or general and sparse storage: the identity and zero verdicts are right up to EPS and positive definite is never returned for a diagonal matrix with an entry below -ZERO. False as stated in two ways: C58_refuted (a matrix with off-diagonal entries is called positive definite without looking at its diagonal) and C58_preset_refuted (a preset type is lost when no matrix is given)."
  },
  {
   "property": "C59",
   "status": "proved",
   "theorems": [
    "C59_objective",
    "C59_refuted",
    "C59_zero_refuted"
   ],
   "note": "Exact value computed by getObjVal over the reals, for every Hessian type and storage: the objective of the Hessian the solver works with, plus 1/2 regVal |x|^2 when regularisation is in use and the type is not zero. So right exactly when no regularisation is in use. C59_refuted: regularisation is counted twice; C59_zero_refuted: for a linear program the regularisation term remains."
  },
  {
   "property": "C60",
   "status": "proved",
   "theorems": [
    "C60_export",
    "C60_export_QProblem",
    "C60_null_QProblem",
    "C60_import"
   ],
   "note": "Export proved for both classes with every arithmetic; a working set built from the exported numbers has the same statuses."
  },
  {
   "property": "C61",
   "status": "proved",
   "theorems": [
    "C61_error_nesting"
   ],
   "note": ""
  },
  {
   "property": "C62",
   "status": "proved",
   "theorems": [
    "C62_memory_safe",
    "C62_hotstart_before_init_refuted"
   ],
   "note": "Every arithmetic, all legal histories; a hotstart before any init is refuted (NULL Hessian dereferenced with regularisation)."
  },
  {
   "property": "C63",
   "status": "proved",
   "theorems": [
    "C63_dense",
    "C63_padding_refuted",
    "C63_sparse",
    "C63_sprow",
    "C63_sprow_short_refuted",
    "C63_sprow_long_refuted"
   ],
   "note": "Refuted for padded dense matrices (leading dimension dropped) and for SparseMatrixRow, whose duplicate() exchanges the lengths of jr and ic."
  },
  {
   "property": "C64",
   "status": "proved",
   "theorems": [
    "C64_nothing_left",
    "C64_wrapper_refuted"
   ],
   "note": "Holds for every sequence without an array hotstart that passes a constraint array to an object with no constraints; refuted for such a call, which loses the matrix object made for A."
  },
  {
   "property": "C65",
   "status": "proved",
   "theorems": [
    "C65_undo_restores"
   ],
   "note": "Every history; the whole record is restored."
  },
  {
   "property": "C66",
   "status": "proved",
   "theorems": [
    "C66_updated_solve",
    "C66_singular_refuted"
   ],
   "note": "Holds whenever det S is not zero, for any contents of fresh memory. Refuted for singular S: the result of backsolveSchurQR is ignored and success is reported."
  },
  {
   "property": "C67",
   "status": "proved",
   "theorems": [
    "C67_step_direction"
   ],
   "note": "Every sequence of additions, removals and refactorisations that leaves R up to date (as in C48), both Hessian types with and without regularisation, with and without iterative refinement, every combination of the two flags that say that bounds do not move. The only other outcomes are a diagonal entry of T that backsolveT takes for zero and a Hessian that vanishes on a nontrivial null space. ZERO = 0."
  },
  {
   "property": "C68",
   "status": "proved",
   "theorems": [
    "C68_step",
    "C68_refuted"
   ],
   "note": "Refuted as stated: hotstart refreshes the types and absence flags of the bounds only, so a lower limit given at a hotstart of a problem initialised without lower constraint limits is ignored and an infeasible point is returned with SUCCESSFUL_RETURN. C68_step: for every storage of A, every working set and every direction as guaranteed by C67, with the flags noLower/noUpper off and for constraints of types other than EQUALITY and UNBOUNDED, no limit is passed by more than epsDen; stationarity and stored distances are kept exactly, active limits exactly or, when the caller says that they do not move (shifts up to EPS), up to EPS. ZERO = 0."
  },
  {
   "property": "C69",
   "status": "proved",
   "theorems": [
    "C69_iteration",
    "C69_answer"
   ],
   "note": "Exact arithmetic, ZERO = 0. C69_iteration composes C67 and C68 with the data shift and the homotopy length; an iteration in which nothing blocks always ends the homotopy. C69_answer: success with limits given for all variables and constraints, none of them absent, and no inactive equality. The change of the working set after a blocked step is the subject of C47, C48 and C50."
  },
  {
   "property": "C70",
   "status": "proved",
   "theorems": [
    "C70_entering",
    "C70_stays_optimal",
    "C70_signs",
    "C70_infeasible",
    "C70_refuted"
   ],
   "note": "Refuted as stated: the search for the leaving one starts with y_min = maxDualJump (1.0e8) and overlooks coefficients below epsDen, so min x^2/2 + 1e8 x on [0,10] hotstarted with x >= 1 is declared infeasible (C70_refuted). C70_infeasible: the verdict is right when no coefficient lies between 0 and epsDen and no candidate has a ratio of maxDualJump or more. C70_entering is for dropInfeasibles off and a positive definite Hessian or epsLITests = 0 (otherwise the test may call an independent one dependent). When the addition fails for another reason only that nothing changed is proved. ZERO = 0."
  },
  {
   "property": "C71",
   "status": "proved",
   "theorems": [
    "C71_refuted",
    "C71_chain"
   ],
   "note": "Refuted as stated: the ratio test ignores multipliers that change by less than epsDen and multipliers below epsNum, so after hotstarts with gradients -2e-13 and -4e-13 on min x^2/2 + g x, 0 <= x <= 10, the hotstart with gradient -1 reports x = 0 with multiplier -1 as the solution, default options (C71_refuted). C71_chain: the statement holds for chains of solveQP calls as long as the accumulated error a + k epsDen is at most -epsNum when the last call starts; with default options and an exact start that is two calls, one less than in the refutation. Guards: finite requested bounds that are no equalities, calls that return 0 working set changes."
  },
  {
   "property": "C72",
   "status": "proved",
   "theorems": [
    "C72_leaving",
    "C72_stays_optimal",
    "C72_stays_solved"
   ],
   "note": "Exact arithmetic, ZERO = 0, enableFlippingBounds and enableNZCTests off (as set by setToMPC). C72_leaving: success with everything kept, or failure and then the Hessian is not positive definite on the directions that the removal releases. C72_stays_optimal: the iterate is optimal for the gradient without the contribution y_i a_i of the removed multiplier; C72_stays_solved: nothing is missing when it was zero, which by C68 is where a step of positive length stops."
  },
  {
   "property": "C73",
   "status": "proved",
   "theorems": [
    "C73_loop",
    "C73_hotstart",
    "C73_value"
   ],
   "note": "C73_loop for solveQP, C73_hotstart for the public hotstart without far bounds, regularisation and guessed working set. C73_value: if the returned multipliers fit the limits that are met, which a caller can check, the objective exceeds that of any feasible point by at most the tolerances times the distance and the multipliers. Exact arithmetic, ZERO = 0. Guards: options as in plain_path (flipping, zero curvature tests, ramping, dropping, drift correction and refactorisation off, epsLITests = 0), finite requested bounds that are no equalities, constraints with at least one limit, start at the end of a factorisation as in C69. Termination and the signs of the multipliers are not claimed: C71_refuted has a run of solveQP that ends with a wrong sign."
  },
  {
   "property": "C74",
   "status": "proved",
   "theorems": [
    "C74_test",
    "C74_leaving"
   ],
   "note": "Exact arithmetic, ZERO = 0, flipping off. C74_test: the direction solves the linearised system with the leaving one shifted by one, so its curvature is the leaving multiplier; the inequality follows. The threshold on the curvature is explicit: epsNZCTests times the row sum of the leaving one. C74_leaving: the removal of C72 with the test on; success is guaranteed. What the test does when the curvature is below the threshold (the exchange) is outside, see C47 and C48."
  },
  {
   "property": "C75",
   "status": "partial",
   "theorems": [
    "C75_refuted",
    "C75_ratio_partial"
   ],
   "note": "Refuted as stated. C75_refuted runs the model in exact rational arithmetic: a constraint without limits keeps the distances of the auxiliary problem, because performStep and the drift correction skip constraints of type ST_UNBOUNDED; the jump stops at such a distance (x = 10000, where the upper bound is 100000) and hotstart then fails with RET_STEPDIRECTION_FAILED_CHOLESKY, though the QP is strictly convex with a solution that the same hotstart finds when the test is off, when the constraint has a limit far away, or when the curvature is above the threshold of C74. C75_ratio_partial: performPlainRatioTest alone, exact arithmetic, is right for the distances it is handed (those above epsNum with direction entries above epsDen); that ensureNonzeroCurvature hands it the right distances is what fails, and no positive theorem about the whole jump is claimed. The run was not repeated with the C++ program."
  }
 ]
}