# A machine-checked model of the qpOASES core

This directory holds a Rocq (Coq 8.16.1) model of the C++ core of qpOASES
(`/repo/src`, `/repo/include/qpOASES`) and proofs of the properties listed in
`properties.jsonl`.  `MANIFEST.json` maps each property to its theorems.
Nothing in `/repo` was built or run: the only tie between code and model is the
reading of the source; every model definition cites the file and the lines it
follows.

## 1. Modelling style

* **Result monad with undefined behaviour.**  `res A = Ok a | UB`.  A C array is
  a Coq list; reading or writing outside the allocation, dereferencing NULL or
  reading a field that was never initialised gives `UB`, never a default value.
  Theorems say `Ok`, so they include memory safety of the modelled code for the
  stated preconditions.
* **Loops** are `for_up`/`for_dn` combinators over `Z` indices with one
  invariant lemma each; `while` loops run on explicit fuel with a distinct
  `OutOfFuel`-free statement: either the fuel is proved sufficient or the result
  is an `option`.
* **Arithmetic.**  Model functions are parametric over a record `Num` of
  operations *without laws* (carrier, + - * / sqrt, comparisons, literals).
  Properties about control flow, index lists, return codes, budgets and state
  machines are proved for every `Num`; so they hold in particular for IEEE
  doubles with NaN and infinities and for any rounding.  Properties that are
  mathematical (factorisations, optimality) are proved for the exact instance
  `RNum` (Coq's reals) in which the tolerances EPS, ZERO, INFTY have the values
  of `Constants.hpp`/`Types.hpp`.  Executable instances: `QNum` (rationals) and
  `FNum` (binary64 by `Coq.Floats.SpecFloat`, no primitive floats).
* **int overflow** of `int_t` is not modelled (indices are `Z`).  Output
  (printf), timing (`cputime`, `getCPUtime`), and the MATLAB/Octave interfaces
  are not modelled.
* Model files contain definitions only; lemma files prove; `Prop_*.v` files hold
  the property theorems with `Print Assumptions` and examples.

## 2. Trusted base

* Coq's kernel (checked again by coqchk).
* Standard-library axioms used through `Reals`:
  `ClassicalDedekindReals.sig_forall_dec`, `ClassicalDedekindReals.sig_not_dec`,
  `FunctionalExtensionality.functional_extensionality_dep`.  Theorems over every
  `Num` or over lists and integers are closed under the global context.  The
  exact list for each theorem is printed by the build under the theorem.
* The reading of the source (model faithfulness), see the per-file notes below.

## 3. Properties: what is modelled, how it is proved

| id | model | proof method |
|---|---|---|
| C01, C02, C57 | Indexlist with UB on bad access | refinement to a duplicate-free list over all op sequences; exact characterisation of UB |
| C03, C04, C05, C06 | SubjectTo, Bounds, Constraints | invariant over all op sequences; refutation witnesses for misuse and partial failure |
| C07, C08, C09 | copy operations as value copies; Flipper fields with an explicit "uninitialised" value | equality and independence; refutation for Flipper |
| C10, C11 | Options, ensureConsistency, presets | every Num for untouched fields; R for ranges; binary64 witness for the failing case |
| C12, C15 | MessageHandling, getSimpleStatus | case analysis over all codes, induction over message histories |
| C13, C14 | getKktViolation | R: residual zero implies global minimiser; witness for NULL gap |
| C16, C17 | normaliseConstraints, getNorm | R |
| C18-C26 | DenseMatrix, SparseMatrix, SparseMatrixRow, Sym* | loops related to finite sums over R; witnesses for refuted cases |
| C27-C30 | dpotrf, Givens, backsolveR, backsolveT | loop invariants over R |
| C31, C32, C38, C46 | QProblemB/QProblem API state machine and solve loops | every Num |
| C33-C37, C39-C43 | QProblemB solver | R, invariants along the homotopy |
| C44, C45, C51 | API-level data flow | every Num, witnesses; C51 hotstart: refinement between the calls with NULL and with infinite limits |
| C46 | QProblem: partial correctness frame of every function of the homotopy (QPFrame), then the status after each exit | every Num, no assumption on the state |
| C47, C48 | QProblem: TQ and projected Cholesky factorisation under every sequence of working set changes | R, invariant; rational witnesses |
| C67 | QProblem: step direction after every sequence of working set changes | R, from the invariants of C47 and C48 |
| C68 | QProblem: one step of the homotopy, ratio tests and update of the stored distances | R (`PropStepQ.v`), refutation over Q (`PropHot.v`) |
| C69 | QProblem: one iteration of the homotopy up to the change of the working set; meaning of success | R (`PropIter.v`), from C67 and C68 |
| C70 | QProblem: a bound or constraint enters the working set; exchange, multipliers, verdict of infeasibility | R (`PropEnter.v`, from `PropExch.v`), refutation over Q (`PropJump.v`) |
| C71 | QProblem: chains of calls without working set changes; errors of sign below the tolerances | R (`PropChain.v`), refutation over Q (`PropLeak.v`) |
| C72 | QProblem: a bound or constraint leaves the working set: what is kept, when it can fail | R (`PropLeave.v`) |
| C73 | QProblem: the whole loop of solveQP and hotstart: meaning of success after any number of working set changes | R (`PropLoop.v`, `QPFrame5.v`), from C67, C68, C70, C72 by an invariant; termination and signs of multipliers not claimed |
| C74 | QProblem: test for zero curvature passes, and removal is that of C72, when the curvature exceeds an explicit threshold | R (`PropCurv.v`): from C67's direction, x'Hx is the multiplier of the leaving one; guards: T diagonal above EPS, Hessian type not zero, statuses settled; the exchange below the threshold is not covered |
| C75 | QProblem: the jump of the zero curvature test stops at the first limit ahead | refuted by a run in Q (`PropCurv.v`): distances stored for constraints without limits are stale and stop the jump; the ratio test alone is right for the distances it is given (R) |
| C49, C50 | QProblem: linear independence test, dropping of infeasible constraints | R, for every state reached by working set changes; rational witnesses |
| C52, C54 | SQProblem: setupNewAuxiliaryQP, hotstart with matrices and with arrays | C52 over R for the auxiliary problem, rational witnesses for the hotstart; C54 every Num |
| C53, C64 | ownership of matrix objects and arrays: setH, setA, init, hotstart, file variants, copy, assignment, destruction; contents abstracted, every outcome of a call a parameter | all call sequences of any number of objects; invariant with ghost records of what the caller lent to whom |
| C55, C65, C66 | `Schur.v`, `SchurM.v` (SQProblemSchur.cpp: Schur complement, its QR factorisation, the solve with the updated KKT matrix); `PropSchur.v`: invariant over all histories of updates, determinant theory in `Det.v` | R; refutations in Q |
| C56, C58-C60 | readFromFile, determineHessianType, getObjVal, getWorkingSet | R or every Num |

This table is refined as the development grows; section 4 records what was
found, section 5 what is not modelled.

## 4. Findings

Behaviour of the source found while modelling it.  "Proved" means that a theorem
of this development shows it on the model.

Solver
* An inconsistent initial guess (multipliers that do not fit the guessed working
  set) is accepted; the run ends with `SUCCESSFUL_RETURN` at a point that is not a
  solution (proved: `C36_refuted`, `C37_guess_refuted`).  With constraints, a
  linearly dependent equality guessed at its upper limit becomes an inequality
  counted as guessed at its lower limit, so even an optimal guess gives a
  non-optimal starting pair (proved: `C36_equality_refuted`).
- `QProblem::updateActivitiesForHotstart` refreshes the types of the bounds only; the call that would
  refresh those of the constraints is commented out in `solveQP`.  A problem initialised without lower
  constraint limits keeps `noLower`, so lower limits given at a later hotstart are ignored: with default
  options `min x^2/2`, `x <= 5`, hotstarted with `2 <= x <= 5`, returns `x = 0` as solved
  (proved: `C68_refuted`).
- The exchange of dependent constraints starts its ratio test with `maxDualJump` (1.0e8 by default) and
  skips coefficients below `epsDen`; "nobody can leave" is then reported as infeasibility.  With default
  options `min x^2/2 + 1e8 x`, `0 <= x <= 10`, hotstarted with the constraint `1 <= x <= 5`, returns
  `RET_HOTSTART_STOPPED_INFEASIBILITY` although x = 1 is feasible; so does a constraint with the
  coefficient 1e-13 (proved: `C70_refuted`).
* **Wrong multipliers build up unnoticed over hotstarts.** performStep
  (QProblem.cpp:5024-5196) ignores a multiplier that changes by less than epsDen
  and one that is already below epsNum. Two hotstarts with tiny changes of the
  gradient push a multiplier to -4e-13; the next one, with gradient -1, then keeps
  the bound active and reports x = 0, y = -1 as the solution although x = 1 is
  better (default options, proved: `C71_refuted`). Drift correction does not help:
  it runs only after a working set change.
* With `enableEqualities`, a variable whose bounds become equal while it is
  inactive is never moved onto them (proved: `C37_equalities_refuted`).
* A hotstart with crossed bounds on a solved object returns `SUCCESSFUL_RETURN`,
  keeps status `QPS_SOLVED`, the old solution and the old `nWSR`
  (proved: `C37_crossed_refuted`).
* Multipliers whose numerator in the ratio test exceeds the tolerance with the
  wrong sign are never blocking, so errors below the tolerance can add up over
  hotstarts (proved: `C37_creep_refuted`).
* Drift correction ignores bounds of type UNBOUNDED, DISABLED and UNKNOWN
  (proved: `C41_refuted`).
* `performRamping` and `updateFarBounds` divide by `nV-1` (proved: `C42_refuted`).
* `QProblem::performRamping` moves the limits of equality constraints to `A*x` without
  updating `Ax_l` and `Ax_u`, unlike `performDriftCorrection` (proved: `C42_slacks_refuted`).
* A regularised zero Hessian with `epsIterRef = 0` doubles the step direction
  (proved: `C34_unguarded_refuted`).
* Hessian type detection calls every matrix with an off-diagonal entry positive
  definite, and a preset type is lost when H is NULL (proved: `C58_refuted`,
  `C58_preset_refuted`).
* `getObjVal` counts regularisation twice (proved: `C59_refuted`, `C59_zero_refuted`).
* Far bounds: `extendFarBounds` only looks at bounds beyond the far bound on their
  own side; a one-sided bound beyond the other far bound gives crossed far bounds.
  With default options the test for active far bounds is finer than the
  termination test, so a far bound can be active without being noticed.
* A hotstart before init with `enableRegularisation` dereferences a NULL Hessian
  (proved).
* A hotstart with `guessedBounds` bypasses the check that the object is initialised.
* `setOptions` does not update the ramping bounds before the next reset; the solver
  itself changes `options.enableRegularisation` and `options.epsRegularisation`.
* After a failing refactorisation `nWSR` is the budget, not the work done.
* `regulariseHessian` changes the caller's matrix (proved: `C44_refuted`), and a
  second init regularises it once more (proved: `C44_reinit_refuted`).
* `reset` forgets the Hessian type given to the constructor; after a failed init
  the next init sees a stale type (proved: `C45_refuted`,
  `C45_after_failure_refuted`).

General QP class
* A hotstart with budget zero leaves status `QPS_PERFORMINGHOMOTOPY`; every later
  hotstart is refused until the object is reset (proved: `C46_refuted_QProblem`,
  `C46_zero_budget_QProblem`).
* A hotstart without far bounds dereferences `lb_new` and `ub_new` even when they
  are NULL (proved: `C51_refuted_QProblem`, `C51_deref_QProblem`).
* `getRelativeHomotopyLength` ignores limits passed as NULL, in both classes.  A
  hotstart that drops limits this way with otherwise unchanged data stops after
  its first step and reports a solved problem at a point that is not optimal
  (proved: `C51_wrong_solution_QProblem`, `C51_wrong_solution_QProblemB`).
* A removal that fails with `RET_HESSIAN_NOT_SPD` has already rotated T and Q while
  the constraint stays active (proved: `C47_failed_removal_refuted`).
* Entries of magnitude at most `ZERO` are not rotated away
  (proved: `C47_small_entry_refuted`).
* Refactorising with an empty working set factorises H although Q is not the unit
  matrix (proved: `C48_refactorisation_refuted`).
* A removal that may not flip sets a diagonal entry of R to a made-up value
  (proved: `C48_forced_removal_refuted`).
* The independence test compares |a'z| with a multiple of |a|^2, so a long row is
  taken for dependent (proved: `C49_refuted`).
* `dropInfeasibles` reads the type of constraint number i for the constraint at
  position i, so an equality constraint can be dropped even when its priority
  forbids it (proved: `C50_wrong_index_refuted`); with the default priorities it
  drops an equality constraint for an inequality (proved: `C50_default_refuted`).
  It ignores the return values of the removals and leaves the multiplier of the
  dropped constraint as it is.
* `removeConstraint` with an inactive number smaller than all active ones reads
  outside the index list before the status check; `addBound` with no degree of
  freedom left writes `w[-1]`.
* The full independence test uses an uninitialised direction when
  `determineStepDirection` fails, and leaves `enableFullLITests` switched off.
* `setA` with a matrix object disables empty rows, with an array it does not.
* `SQProblem::hotstart` with matrix objects changes the status before it looks at
  its arguments: without a constraint matrix or a Hessian every later hotstart is
  refused (proved: `C54_no_matrix_refuted`, `C54_no_hessian_refuted`).
* `SQProblem::hotstart` drops constraints that became dependent from the working
  set and keeps their multipliers; the hotstart then succeeds at a point that is
  not optimal, or with wrong multipliers (proved: `C52_wrong_solution_refuted`,
  `C52_wrong_multipliers_refuted`).  A factorisation that fails twice is ignored
  (proved: `C52_failed_cholesky_refuted`).
* `SQProblem::hotstart` with files deletes the arrays of the new matrices while H
  and A still refer to them; the next call reads freed memory (proved:
  `C53_file_hotstart_refuted`).
* `SQProblem::setupNewAuxiliaryQP` with arrays never frees the matrix object made
  for A if the object has no constraints (proved: `C64_wrapper_refuted`).

Schur complement class
* Entries of magnitude at most `ZERO` are not rotated away, so R is not triangular
  and solves are wrong (proved: `C55_small_entry_refuted`).
* `calcDetSchur` ignores that the solve with a singular S failed; the predicted
  determinant has the wrong sign (proved: `C55_singular_probe_refuted`).
* `stepCalcBacksolveSchur` ignores the result of `backsolveSchurQR`; it reports
  success for a pair that does not solve the system, and the branch of
  `determineStepDirection` for `RET_QR_FACTORISATION_FAILED` is never taken
  (proved: `C66_singular_refuted`).
* `resetSchurComplement` with inertia correction sets `nS = 0` at its end (line
  3112) and so discards the updates that `correctInertia` has just made.
* `undoDeleteFromSchurComplement` prints `schurUpdateIndex[nS-1]` with `nS = 0`
  possible (line 3347, print level high).
* Early returns of `correctInertia`, `addToSchurComplement` and
  `stepCalcBacksolveSchur` leak their work arrays.
* With the replacement LAPACK, TRTRS is a dummy that reports failure: every
  backsolve with S fails.

Containers and matrices
* `Flipper` copies: the assignment in `QProblemB::copy` (proved: C08 theorems).
* `DenseMatrix::duplicate` drops the leading dimension and shares storage that is
  not owned; `SparseMatrixRow::duplicate` swaps the lengths of `jr` and `ic` (proved).

Replacement BLAS/LAPACK
* `DGEMM` ignores `TRANSB`; `DTRTRS` and `DTRCON` are dummies.

## 5. Not modelled

* Copy constructor and assignment of the solver objects and the file variants of
  init and hotstart, except for the ownership of H and A (`Ownership.v`).
* Printing, timing, and `getWorkingSetConstraints`.
* Output, `SolutionAnalysis` apart from the KKT residual, the sparse linear
  solvers (MA27/MA57), and the C, MATLAB, Octave and Simulink interfaces.
* Of `SQProblemSchur`: the sparse solver (a function that solves with the
  factorised matrix or fails), the condition estimate TRCON, and the assembly of
  the sparse columns from H and A.
* `int_t` overflow, and allocation failure.
