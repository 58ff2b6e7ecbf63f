{"id": "C01", "title": "An index list is exactly an ordered set", "statement": "Starting from an empty index list of any capacity, after any sequence of addNumber/removeNumber/swapNumbers calls that never adds a number twice, getLength, getNumber, getIndex, isMember, getNumberArray and getLastNumber answer as an insertion-ordered duplicate-free list would: adding appends, removing closes the gap and keeps the order of the others, swapping exchanges two positions, adding to a full list is refused with RET_INDEXLIST_EXCEEDS_MAX_LENGTH and changes nothing.", "quantifier": "every capacity, every finite sequence of operations, every stored and queried number", "why_tests_cant": "The sorted-position array that drives the bisection is maintained incrementally; a wrong shift shows only after particular add/remove/swap histories, and there are unboundedly many histories.", "anchors": ["src/Indexlist.cpp:Indexlist::addNumber", "src/Indexlist.cpp:Indexlist::removeNumber", "src/Indexlist.cpp:Indexlist::swapNumbers", "src/Indexlist.cpp:Indexlist::getIndex", "src/Indexlist.cpp:Indexlist::findInsert", "include/qpOASES/Indexlist.ipp"]}
{"id": "C02", "title": "Index list queries never touch memory outside the list", "statement": "For every well-formed index list and every queried number, getIndex, isMember, removeNumber and swapNumbers access only array elements inside the allocation and return a defined answer.", "quantifier": "every well-formed list and every int argument", "why_tests_cant": "An out-of-bounds read of one element below the array normally returns some heap word and the test passes; whether an in-range answer is guaranteed must be decided for every argument.", "anchors": ["src/Indexlist.cpp:Indexlist::getIndex", "src/Indexlist.cpp:Indexlist::removeNumber", "src/Indexlist.cpp:Indexlist::swapNumbers", "include/qpOASES/Indexlist.ipp:Indexlist::getNumber"]}
{"id": "C03", "title": "Every variable is either free or fixed, exactly once", "statement": "After Bounds::init and setupBound for every index, after any sequence of moveFixedToFree, moveFreeToFixed, flipFixed and swapFree calls, each variable number occurs exactly once in exactly one of the free and fixed index lists, getNFR+getNFX equals the number of set-up variables, and getStatus agrees with list membership (ST_INACTIVE iff free).", "quantifier": "every number of variables and every finite operation sequence, including operations that are rejected", "why_tests_cant": "The solver keeps the partition by local edits over thousands of working-set changes; a test sees only the partitions its own QP reaches.", "anchors": ["src/Bounds.cpp:Bounds::setupBound", "src/Bounds.cpp:Bounds::moveFixedToFree", "src/Bounds.cpp:Bounds::moveFreeToFixed", "src/Bounds.cpp:Bounds::flipFixed", "src/Bounds.cpp:Bounds::swapFree", "src/SubjectTo.cpp:SubjectTo::addIndex", "src/SubjectTo.cpp:SubjectTo::removeIndex"]}
{"id": "C04", "title": "A bound set up twice is rejected without corrupting the sets", "statement": "Calling Bounds::setupBound (or Constraints::setupConstraint, moveFreeToFixed) on an index that is already in a different set returns an error and leaves the working set a partition.", "quantifier": "every working set and every misuse of the public calls", "why_tests_cant": "The corruption (an index in both lists) is silent at the call and surfaces arbitrarily later.", "anchors": ["src/Bounds.cpp:Bounds::setupBound", "src/Bounds.cpp:Bounds::moveFreeToFixed", "src/SubjectTo.cpp:SubjectTo::addIndex"]}
{"id": "C05", "title": "Every constraint is either active or inactive, exactly once", "statement": "After Constraints::init and setupConstraint for every index, after any sequence of moveActiveToInactive, moveInactiveToActive and flipFixed calls, each constraint number occurs exactly once in exactly one of the active and inactive lists and getStatus agrees with list membership.", "quantifier": "every number of constraints and every finite operation sequence", "why_tests_cant": "Same as C03: unboundedly many working-set histories.", "anchors": ["src/Constraints.cpp:Constraints::setupConstraint", "src/Constraints.cpp:Constraints::moveActiveToInactive", "src/Constraints.cpp:Constraints::moveInactiveToActive", "src/Constraints.cpp:Constraints::flipFixed"]}
{"id": "C06", "title": "shift and rotate move the stored status blocks and fail atomically", "statement": "Bounds::shift/rotate (and the Constraints versions) either return SUCCESSFUL_RETURN with type and status of index i being the ones previously held at the shifted/rotated index and the lists rebuilt accordingly, or return an error code and leave the working set unchanged.", "quantifier": "every working set, every offset", "why_tests_cant": "The error path depends on the working set, and in-place block moves are right or wrong depending on divisibility of size by offset.", "anchors": ["src/Bounds.cpp:Bounds::shift", "src/Bounds.cpp:Bounds::rotate", "src/Constraints.cpp:Constraints::shift", "src/Constraints.cpp:Constraints::rotate"]}
{"id": "C07", "title": "Copies of index lists and working sets are equal and independent", "statement": "Copy-constructing or assigning an Indexlist, Bounds or Constraints object gives an object answering every query like the source, and later operations on one do not change the other.", "quantifier": "every object state and every later operation sequence on either object", "why_tests_cant": "Aliasing shows only when a later mutation hits the shared part.", "anchors": ["src/Indexlist.cpp:Indexlist::copy", "src/Bounds.cpp:Bounds::copy", "src/Constraints.cpp:Constraints::copy", "src/SubjectTo.cpp:SubjectTo::copy"]}
{"id": "C08", "title": "A copied problem keeps its saved snapshot", "statement": "Copying a Flipper (copy constructor or assignment) yields a Flipper whose get returns exactly what the source's get returns, and no copy touches memory outside its allocations.", "quantifier": "every source and target dimension and every saved snapshot", "why_tests_cant": "The copy reads uninitialised or stale dimension fields; a test gets whatever bytes the allocator left there.", "anchors": ["src/Flipper.cpp:Flipper::copy", "src/Flipper.cpp:Flipper::operator=", "src/Flipper.cpp:Flipper::set"]}
{"id": "C09", "title": "Flipper set/get round trip", "statement": "After Flipper::init(nV,nC) and set with any bounds, constraints and factor arrays, get returns exactly those objects and arrays (only the parts that were given), repeatedly and without modifying the snapshot.", "quantifier": "all dimensions and all array contents", "why_tests_cant": "All array contents and dimensions, including zero constraints.", "anchors": ["src/Flipper.cpp:Flipper::init", "src/Flipper.cpp:Flipper::set", "src/Flipper.cpp:Flipper::get"]}
{"id": "C10", "title": "Options become consistent and stay consistent", "statement": "After Options::ensureConsistency every documented range of the options holds (positive tolerances, farBounds > relaxation, growFarBounds >= 1.1, non-negative step counts, admissible initial status...), values already admissible are left untouched, and a second call changes nothing and returns SUCCESSFUL_RETURN.", "quantifier": "every value of every option", "why_tests_cant": "The option space is a product of reals and ints; tests try a few presets.", "anchors": ["src/Options.cpp:Options::ensureConsistency"]}
{"id": "C11", "title": "Every preset is consistent", "statement": "setToDefault, setToReliable, setToMPC/setToFast give an option set that ensureConsistency accepts unchanged.", "quantifier": "every preset, from every prior option state", "why_tests_cant": "Fields not assigned by a preset keep their prior value; only a statement about every prior state shows nothing leaks.", "anchors": ["src/Options.cpp:Options::setToDefault", "src/Options.cpp:Options::setToReliable", "src/Options.cpp:Options::setToMPC"]}
{"id": "C12", "title": "Reporting an error never changes it", "statement": "THROWERROR/THROWWARNING/THROWINFO return the code they are given for every code a caller can legally pass, whatever the visibility settings and counters are; codes that are not errors are mapped to RET_ERROR_UNDEFINED.", "quantifier": "every return code, every visibility setting, every history of earlier messages", "why_tests_cant": "Return codes pass through the global handler with its mutable error counter, on every path.", "anchors": ["src/MessageHandling.cpp:MessageHandling::throwError", "src/MessageHandling.cpp:MessageHandling::throwMessage", "include/qpOASES/MessageHandling.ipp"]}
{"id": "C13", "title": "A zero KKT residual certifies a global solution", "statement": "For a convex QP, if getKktViolation reports stationarity, feasibility and complementarity residuals of zero for (x,y) then x is feasible and no feasible point has a smaller objective; with residuals bounded by eps the objective gap is bounded by an explicit multiple of eps.", "quantifier": "all dimensions, all data with positive semidefinite H, all primal-dual points", "why_tests_cant": "Global optimality quantifies over all feasible points of a continuous set.", "anchors": ["src/Utils.cpp:getKktViolation"]}
{"id": "C14", "title": "The KKT residual covers every bound the user passed", "statement": "If getKktViolation reports zero feasibility residual then x satisfies every lower and upper bound and constraint bound passed to it, whichever of the pointers are NULL.", "quantifier": "all data and all NULL/non-NULL combinations of the bound pointers", "why_tests_cant": "A missing branch is invisible unless the particular NULL combination and a violated bound are both tried.", "anchors": ["src/Utils.cpp:getKktViolation"]}
{"id": "C15", "title": "Return values map to simple status codes as documented", "statement": "getSimpleStatus maps SUCCESSFUL_RETURN to 0, RET_MAX_NWSR_REACHED to 1, infeasible codes to -2, unbounded codes to -3 and every other return value to -1.", "quantifier": "every return value", "why_tests_cant": "The code has many dozens of return values; the mapping must be total.", "anchors": ["src/Utils.cpp:getSimpleStatus"]}
{"id": "C16", "title": "Normalising constraints preserves the feasible set", "statement": "normaliseConstraints leaves the set of x with lbA<=Ax<=ubA unchanged and makes every non-negligible row have norm one, for every supported norm type; for an unsupported type the data is left unchanged.", "quantifier": "all dimensions, matrices, bounds and type arguments", "why_tests_cant": "Set equality is a statement about all x.", "anchors": ["src/Utils.cpp:normaliseConstraints"]}
{"id": "C17", "title": "Norms are the mathematical norms", "statement": "getNorm(v,n,type) returns the Euclidean norm for type 2 and the 1-norm for type 1, is zero only for the zero vector and satisfies the triangle inequality.", "quantifier": "all vectors of all lengths", "why_tests_cant": "All vectors.", "anchors": ["include/qpOASES/Utils.ipp:getNorm"]}
{"id": "C18", "title": "Dense matrix products compute alpha*A*x + beta*y", "statement": "DenseMatrix::times and transTimes return alpha*A*X+beta*Y (resp. A'), for every alpha, beta, number of right-hand sides and leading dimension at least the number of rows, and write only the addressed entries of Y.", "quantifier": "all dimensions, strides, scalars and contents", "why_tests_cant": "Special-cased alpha/beta branches and strides multiply the cases; contents are real.", "anchors": ["src/Matrices.cpp:DenseMatrix::times", "src/Matrices.cpp:DenseMatrix::transTimes", "src/BLASReplacement.cpp:dgemm_"]}
{"id": "C19", "title": "Indexed products with compressed result are exact", "statement": "The submatrix products times(irows,icols,...,yCompr=TRUE) and transTimes(irows,icols,...) on dense matrices compute exactly the product with the selected rows and columns, in list order, for every alpha and beta.", "quantifier": "all dimensions, all index lists, all scalars, contents", "why_tests_cant": "The code iterates through a sorted permutation of the index list and writes through the inverse; only particular permutations expose a mistake.", "anchors": ["src/Matrices.cpp:DenseMatrix::times", "src/Matrices.cpp:DenseMatrix::transTimes"]}
{"id": "C20", "title": "Indexed products with uncompressed result agree with the compressed ones", "statement": "times(irows,icols,...,yCompr=FALSE) writes to y[irows[k]] the value the compressed version writes to y[k], for every alpha and beta.", "quantifier": "all index lists, scalars, matrices", "why_tests_cant": "The source position read back for beta != 0 differs from the written one in one branch; only beta=-1 with a non-identity index list shows it.", "anchors": ["src/Matrices.cpp:DenseMatrix::times"]}
{"id": "C21", "title": "Sparse construction loses nothing", "statement": "Building a SparseMatrix, SparseMatrixRow or SymSparseMat from a dense array and expanding it with full() gives back the dense array.", "quantifier": "all dimensions and contents", "why_tests_cant": "The number and position of nonzeros vary arbitrarily.", "anchors": ["src/Matrices.cpp:SparseMatrix::SparseMatrix", "src/Matrices.cpp:SparseMatrix::full", "src/Matrices.cpp:SparseMatrixRow::SparseMatrixRow", "src/Matrices.cpp:SparseMatrixRow::full"]}
{"id": "C22", "title": "Sparse products equal dense products", "statement": "SparseMatrix and SparseMatrixRow times return the same vectors as the dense matrix with the same entries.", "quantifier": "all sparsity patterns, dimensions, scalars and contents", "why_tests_cant": "Merging a sorted column against a sorted index list is correct or not depending on the interleaving pattern of both lists.", "anchors": ["src/Matrices.cpp:SparseMatrix::times", "src/Matrices.cpp:SparseMatrixRow::times"]}
{"id": "C23", "title": "transTimes is the adjoint of times", "statement": "For every matrix class, <y, A x> = <A' y, x> for the vectors computed by times and transTimes with alpha=1, beta=0.", "quantifier": "all matrices and vectors", "why_tests_cant": "Relates two independently written loops over all inputs.", "anchors": ["src/Matrices.cpp:SparseMatrix::transTimes", "src/Matrices.cpp:DenseMatrix::transTimes"]}
{"id": "C24", "title": "Bilinear forms are computed exactly", "statement": "SymDenseMat::bilinear and SymSparseMat::bilinear return X'HX for the selected index set, the result being symmetric, for every index set.", "quantifier": "all symmetric matrices, index sets, X", "why_tests_cant": "All index sets and contents.", "anchors": ["src/Matrices.cpp:SymDenseMat::bilinear", "src/Matrices.cpp:SymSparseMat::bilinear"]}
{"id": "C25", "title": "addToDiag adds to every diagonal entry or to none", "statement": "Matrix::addToDiag(a) returns SUCCESSFUL_RETURN and increases every diagonal entry by a, or returns RET_NO_DIAGONAL_AVAILABLE and leaves the matrix unchanged; it never touches an off-diagonal entry.", "quantifier": "all matrices, patterns and values", "why_tests_cant": "Depends on which diagonal positions are present in the pattern.", "anchors": ["src/Matrices.cpp:DenseMatrix::addToDiag", "src/Matrices.cpp:SparseMatrix::addToDiag", "src/Matrices.cpp:SparseMatrixRow::addToDiag"]}
{"id": "C26", "title": "Row, column and diagonal extraction are exact", "statement": "getRow, getCol, diag, isDiag and getRowNorm return the stated entries of the represented matrix scaled by alpha for every class.", "quantifier": "all matrices, indices, index lists and alpha", "why_tests_cant": "Patterns and special-cased alpha.", "anchors": ["src/Matrices.cpp:SparseMatrix::getRow", "src/Matrices.cpp:SparseMatrix::getCol", "src/Matrices.cpp:SparseMatrix::getRowNorm", "src/Matrices.cpp:SparseMatrix::isDiag"]}
{"id": "C27", "title": "Cholesky factorisation succeeds exactly on positive definite matrices", "statement": "The dpotrf replacement returns info=0 with an upper triangular R with positive diagonal and R'R equal to the input iff the symmetric input is positive definite; otherwise it returns the 1-based index of the first non-positive leading pivot.", "quantifier": "all dimensions and symmetric matrices (exact arithmetic)", "why_tests_cant": "Positive definiteness is a statement about all vectors.", "anchors": ["src/LAPACKReplacement.cpp:dpotrf_", "src/QProblemB.cpp:QProblemB::computeCholesky"]}
{"id": "C28", "title": "Plane rotations are orthogonal and annihilate", "statement": "computeGivens returns c,s with c^2+s^2=1 such that applyGivens maps (a,b) to (r,0); applying the rotation keeps the Euclidean norm of every pair.", "quantifier": "all reals a,b (exact arithmetic)", "why_tests_cant": "All reals, including the tiny-b and |b|>|a| branches.", "anchors": ["include/qpOASES/QProblemB.ipp:QProblemB::computeGivens", "include/qpOASES/QProblemB.ipp:QProblemB::applyGivens"]}
{"id": "C29", "title": "Triangular solves with the Cholesky factor are exact or refused", "statement": "backsolveR returns SUCCESSFUL_RETURN with a vector a such that Ra=b (or R'a=b when transposed), or RET_DIV_BY_ZERO when a diagonal entry is negligible.", "quantifier": "all upper triangular R and right-hand sides (exact arithmetic)", "why_tests_cant": "All real data.", "anchors": ["src/QProblemB.cpp:QProblemB::backsolveR"]}
{"id": "C30", "title": "Triangular solves with the constraint factor are exact or refused", "statement": "backsolveT returns SUCCESSFUL_RETURN with a vector a such that Ta=b (or T'a=b), T being reverse triangular, or RET_DIV_BY_ZERO.", "quantifier": "all reverse triangular T and right-hand sides (exact arithmetic)", "why_tests_cant": "All real data.", "anchors": ["src/QProblem.cpp:QProblem::backsolveT"]}
{"id": "C31", "title": "Results are only handed out when they exist", "statement": "getPrimalSolution, getDualSolution and getObjVal report RET_QP_NOT_SOLVED / +infinity unless the last init/hotstart ended with a solved QP, and isSolved/isInitialised agree with that, for every history of calls.", "quantifier": "every history of init, hotstart, reset and setters, successful or failing", "why_tests_cant": "Histories are unbounded.", "anchors": ["src/QProblemB.cpp:QProblemB::getPrimalSolution", "src/QProblemB.cpp:QProblemB::getDualSolution", "src/QProblemB.cpp:QProblemB::getObjVal", "include/qpOASES/QProblemB.ipp"]}
{"id": "C32", "title": "The working-set budget is never exceeded and the solver always returns", "statement": "init and hotstart perform at most nWSR working-set recalculations in total (over far-bound enlargements and regularisation steps), always return, report in nWSR the number performed, and a positive return of RET_MAX_NWSR_REACHED means exactly the budget was consumed.", "quantifier": "every problem, every arithmetic outcome including NaN, every budget", "why_tests_cant": "Termination and budgets over nested restart loops must hold for all data, including data on which the numerics misbehave.", "anchors": ["src/QProblemB.cpp:QProblemB::solveQP", "src/QProblemB.cpp:QProblemB::hotstart", "src/QProblemB.cpp:QProblemB::solveRegularisedQP", "src/QProblem.cpp:QProblem::solveQP"]}
{"id": "C33", "title": "The ratio test returns the largest safe step", "statement": "The step length found by the ratio test is the minimum of 1 and all blocking ratios; the reported blocking index attains it; if no index is reported the step is the full one.", "quantifier": "all candidate vectors, index lists, tolerances", "why_tests_cant": "All data vectors.", "anchors": ["src/QProblemB.cpp:QProblemB::performRatioTest", "src/QProblem.cpp:QProblem::performRatioTest"]}
{"id": "C34", "title": "The step direction solves the linearised optimality system", "statement": "For every working set with a valid factorisation, the computed primal and dual step satisfies H dx + dg = dy (+ A'dyC), fixed variables move with their bounds, free multipliers do not move.", "quantifier": "all working sets, Hessians of every type (zero, identity, posdef), all data shifts (exact arithmetic)", "why_tests_cant": "All working sets and real data.", "anchors": ["src/QProblemB.cpp:QProblemB::determineStepDirection", "src/QProblem.cpp:QProblem::determineStepDirection"]}
{"id": "C35", "title": "Iterates stay optimal along the homotopy", "statement": "After every working-set change of the homotopy the current primal-dual iterate satisfies the optimality conditions of the current intermediate QP: stationarity, correct multiplier signs and bounds satisfied, up to the documented ratio-test tolerances.", "quantifier": "every number of iterations, every QP, every start", "why_tests_cant": "Needs an invariant over unboundedly many iterations.", "anchors": ["src/QProblemB.cpp:QProblemB::performStep", "src/QProblemB.cpp:QProblemB::solveQP", "src/QProblemB.cpp:QProblemB::changeActiveSet"]}
{"id": "C36", "title": "Any initial guess gives an exactly optimal auxiliary problem", "statement": "For every user guess of the primal point, the dual point and the working set, the auxiliary QP built by init has the guess as exact optimal solution (stationarity, feasibility, complementarity, multiplier signs).", "quantifier": "all guesses, including inconsistent ones", "why_tests_cant": "All guesses.", "anchors": ["src/QProblemB.cpp:QProblemB::setupAuxiliaryQPgradient", "src/QProblemB.cpp:QProblemB::setupAuxiliaryQPbounds", "src/QProblemB.cpp:QProblemB::obtainAuxiliaryWorkingSet", "src/QProblem.cpp:QProblem::setupAuxiliaryQPgradient", "src/QProblem.cpp:QProblem::setupAuxiliaryQPbounds"]}
{"id": "C37", "title": "A successful return is a solution of the problem that was asked", "statement": "If the homotopy ends with SUCCESSFUL_RETURN and QPS_SOLVED, the stored QP data equals the requested data up to the relative termination tolerance and the primal-dual pair returned is a KKT point of the stored data, hence (convex case) a global minimiser of it.", "quantifier": "every strictly convex QP, every start, every path of working-set changes (exact arithmetic)", "why_tests_cant": "End-to-end correctness over all problems and all paths.", "anchors": ["src/QProblemB.cpp:QProblemB::solveQP", "src/QProblemB.cpp:QProblemB::changeActiveSet", "src/QProblemB.cpp:QProblemB::getRelativeHomotopyLength"]}
{"id": "C38", "title": "Contradictory bounds are never reported as success", "statement": "hotstart with some lb > ub (or lbA > ubA) returns a non-zero return value, does not claim the problem solved and flags infeasibility.", "quantifier": "every state from which hotstart is called and all contradictory bounds", "why_tests_cant": "A call sequence init-then-hotstart with contradictory data returning code 0 looks like success to a test checking the code.", "anchors": ["src/QProblemB.cpp:QProblemB::hotstart", "src/QProblem.cpp:QProblem::hotstart", "src/QProblemB.cpp:QProblemB::setInfeasibilityFlag"]}
{"id": "C39", "title": "Cholesky updates keep the factorisation exact", "statement": "Adding and removing bounds from the working set keeps R'R equal to the Hessian restricted to the free variables (in free-list order), for every sequence of additions and removals that succeed.", "quantifier": "all positive definite Hessians and update sequences (exact arithmetic)", "why_tests_cant": "Update sequences are unbounded.", "anchors": ["src/QProblemB.cpp:QProblemB::addBound", "src/QProblemB.cpp:QProblemB::removeBound"]}
{"id": "C40", "title": "A flipped bound with bad curvature restores the earlier factorisation", "statement": "When removing a bound would give an indefinite projected Hessian and flipping bounds is enabled, the working set is the old one with just that bound flipped to the opposite side, and the factorisation is the one from before.", "quantifier": "all problems and working sets", "why_tests_cant": "Rare path; the restored snapshot must match in every state.", "anchors": ["src/QProblemB.cpp:QProblemB::removeBound", "src/Flipper.cpp:Flipper::get"]}
{"id": "C41", "title": "Drift correction makes the iterate exactly consistent", "statement": "After performDriftCorrection the stored bounds contain x, active bounds equal x, multipliers of inactive bounds are zero, active multipliers have the right sign and the gradient makes (x,y) exactly stationary.", "quantifier": "every iterate and working set", "why_tests_cant": "All states.", "anchors": ["src/QProblemB.cpp:QProblemB::performDriftCorrection", "src/QProblem.cpp:QProblem::performDriftCorrection"]}
{"id": "C42", "title": "Ramping keeps the iterate optimal", "statement": "Ramping replaces the intermediate QP by one for which the current primal-dual pair is still exactly optimal; all modified data stays finite.", "quantifier": "every dimension (including one variable) and state", "why_tests_cant": "All dimensions and offsets; degenerate dimension one divides by zero.", "anchors": ["src/QProblemB.cpp:QProblemB::performRamping", "src/QProblem.cpp:QProblem::performRamping"]}
{"id": "C43", "title": "Far bounds only ever replace missing bounds", "statement": "With far bounds enabled every user bound tighter than the far bound is kept as it is and others are replaced by a value at least the far bound in magnitude; enlarging terminates, with an unbounded/infeasible verdict only when the far bound exceeded infinity.", "quantifier": "all bounds, dimensions and growth factors", "why_tests_cant": "Unbounded number of enlargement rounds, all data.", "anchors": ["src/QProblemB.cpp:QProblemB::updateFarBounds", "src/QProblemB.cpp:QProblemB::hotstart"]}
{"id": "C44", "title": "The caller's matrices are never modified", "statement": "Data passed as const arrays to init or hotstart have the same contents afterwards.", "quantifier": "every call and every option setting", "why_tests_cant": "Only some option/definiteness combinations trigger an in-place regularisation.", "anchors": ["src/QProblemB.cpp:QProblemB::regulariseHessian", "src/QProblemB.cpp:QProblemB::setH", "src/Matrices.cpp:DenseMatrix::addToDiag"]}
{"id": "C45", "title": "Re-initialising equals starting afresh", "statement": "Calling init on a used object gives the same result as calling it on a newly constructed object with the same options.", "quantifier": "every history before the second init and all data", "why_tests_cant": "Every history of earlier calls.", "anchors": ["src/QProblemB.cpp:QProblemB::reset", "src/QProblemB.cpp:QProblemB::determineHessianType", "src/QProblemB.cpp:QProblemB::init"]}
{"id": "C46", "title": "Running out of budget keeps the object usable", "statement": "After hotstart returns RET_MAX_NWSR_REACHED a further hotstart with more budget is accepted and continues.", "quantifier": "every problem and every budget including zero", "why_tests_cant": "Budget values at the boundary.", "anchors": ["src/QProblem.cpp:QProblem::solveQP", "src/QProblemB.cpp:QProblemB::solveQP", "src/QProblem.cpp:QProblem::hotstart"]}
{"id": "C47", "title": "The TQ factorisation stays exact", "statement": "Q stays orthogonal, [0 T] = A_active,free Q with T reverse triangular and the first nZ columns of Q spanning the null space, under every sequence of constraint and bound additions and removals.", "quantifier": "all matrices, all update sequences (exact arithmetic)", "why_tests_cant": "Unbounded sequences of plane rotations.", "anchors": ["src/QProblem.cpp:QProblem::addConstraint", "src/QProblem.cpp:QProblem::addBound", "src/QProblem.cpp:QProblem::removeConstraint", "src/QProblem.cpp:QProblem::removeBound", "src/QProblem.cpp:QProblem::setupTQfactorisation"]}
{"id": "C48", "title": "The projected Cholesky factor stays exact", "statement": "R'R = Z'HZ holds for the null-space basis Z before and after every constraint/bound addition and removal that succeeds.", "quantifier": "all problems, all update sequences (exact arithmetic)", "why_tests_cant": "Unbounded sequences.", "anchors": ["src/QProblem.cpp:QProblem::addConstraint", "src/QProblem.cpp:QProblem::addBound", "src/QProblem.cpp:QProblem::removeConstraint", "src/QProblem.cpp:QProblem::removeBound"]}
{"id": "C49", "title": "The linear-independence test does not depend on scaling", "statement": "Whether a constraint is accepted as linearly independent does not change if the constraint row (and its bounds) is multiplied by a positive factor.", "quantifier": "all rows, null-space bases and positive factors", "why_tests_cant": "All scalings.", "anchors": ["src/QProblem.cpp:QProblem::addConstraint_checkLI"]}
{"id": "C50", "title": "Dropping infeasible constraints respects equality constraints", "statement": "With constraint dropping enabled only inequality constraints of minimum priority are removed or swapped; no equality constraint is dropped.", "quantifier": "all working sets, priorities and types", "why_tests_cant": "A wrong index coincides with the right one on simple working sets.", "anchors": ["src/QProblem.cpp:QProblem::dropInfeasibles"]}
{"id": "C51", "title": "NULL means no bound, for every call", "statement": "Passing NULL for any of lb, ub, lbA, ubA to any init/hotstart overload is treated as absence of that bound and never dereferenced.", "quantifier": "all overloads, option settings and NULL combinations", "why_tests_cant": "Combinatorial.", "anchors": ["src/QProblem.cpp:QProblem::updateActivitiesForHotstart", "src/QProblemB.cpp:QProblemB::hotstart", "src/QProblem.cpp:QProblem::setupAuxiliaryQP"]}
{"id": "C52", "title": "New matrices leave the iterate optimal for the auxiliary problem", "statement": "SQProblem::hotstart with new H and A builds an auxiliary QP for which the old primal-dual pair is exactly optimal: constraint bounds are moved with A x and the gradient is recomputed.", "quantifier": "all old solutions and all new matrices", "why_tests_cant": "All data.", "anchors": ["src/SQProblem.cpp:SQProblem::setupNewAuxiliaryQP", "src/SQProblem.cpp:SQProblem::setupAuxiliaryQP"]}
{"id": "C53", "title": "No object ever refers to freed data", "statement": "After any successful or failing init/hotstart, including the variants reading data from files, all data later read by the object is still allocated.", "quantifier": "every call sequence", "why_tests_cant": "Use after free usually reads the old bytes.", "anchors": ["src/SQProblem.cpp:SQProblem::hotstart"]}
{"id": "C54", "title": "A rejected hotstart leaves the object as it was", "statement": "A hotstart rejected for invalid arguments leaves a solved problem solved, so a following correct hotstart works.", "quantifier": "all states and invalid argument combinations", "why_tests_cant": "Histories.", "anchors": ["src/SQProblem.cpp:SQProblem::setupNewAuxiliaryQP", "src/QProblem.cpp:QProblem::hotstart"]}
{"id": "C55", "title": "Schur complement updates keep the factorisation exact", "statement": "Q R equals the current Schur complement with Q orthogonal and R upper triangular after every append and delete, and the reported determinant sign is the sign of det(S).", "quantifier": "all update sequences (exact arithmetic)", "why_tests_cant": "Unbounded update sequences.", "anchors": ["src/SQProblemSchur.cpp:SQProblemSchur::updateSchurQR", "src/SQProblemSchur.cpp:SQProblemSchur::calcDetSchur", "src/SQProblemSchur.cpp:SQProblemSchur::backsolveSchurQR"]}
{"id": "C56", "title": "A file shorter than requested is reported", "statement": "readFromFile returns an error unless the file held at least the requested number of values, and on success the array holds the file's values in order.", "quantifier": "all file contents and requested sizes", "why_tests_cant": "All truncation points.", "anchors": ["src/Utils.cpp:readFromFile"]}
{"id": "C57", "title": "getNumber refuses every position outside the list", "statement": "Indexlist::getNumber(k) returns the k-th stored number for 0<=k<length and the documented negative error code for every other k.", "quantifier": "every list and position", "why_tests_cant": "Off-by-one at exactly k=length reads stale data that can look valid.", "anchors": ["include/qpOASES/Indexlist.ipp:Indexlist::getNumber"]}
{"id": "C58", "title": "Hessian type detection is sound", "statement": "determineHessianType returns HST_IDENTITY only for (numerically) identity matrices, HST_ZERO only for zero matrices and never HST_POSDEF for a matrix with a negative diagonal; a type preset by the user is kept.", "quantifier": "all matrices and prior types", "why_tests_cant": "All real matrices.", "anchors": ["src/QProblemB.cpp:QProblemB::determineHessianType", "src/QProblem.cpp:QProblem::determineHessianType"]}
{"id": "C59", "title": "The objective value is the QP objective at the returned point", "statement": "getObjVal(x) returns 1/2 x'Hx + g'x for each Hessian representation, also when the Hessian was regularised internally.", "quantifier": "all x, data, Hessian types", "why_tests_cant": "All real data.", "anchors": ["src/QProblemB.cpp:QProblemB::getObjVal"]}
{"id": "C60", "title": "Working set export and import are inverse", "statement": "getWorkingSet/getWorkingSetBounds/getWorkingSetConstraints return for every bound and constraint -1, 0 or 1 exactly as its status is lower-active, inactive or upper-active.", "quantifier": "every working set", "why_tests_cant": "All working sets.", "anchors": ["src/QProblemB.cpp:QProblemB::getWorkingSet", "src/QProblem.cpp:QProblem::getWorkingSet"]}
{"id": "C61", "title": "Error nesting depth", "statement": "For every sequence of reports and visibility changes, the handler's error counter (the number of nested arrows printed with the next error) equals the number of errors printed since the last printed warning or information.", "quantifier": "every sequence of reports and visibility changes from any initial visibility", "why_tests_cant": "The counter is hidden global state that depends on the entire history.", "anchors": ["src/MessageHandling.cpp:MessageHandling::throwError", "include/qpOASES/MessageHandling.ipp"]}
{"id": "C62", "title": "No undefined behaviour over call histories of QProblemB", "statement": "For every history of init (any Hessian representation, any subset of optional arguments), hotstart (with or without guessed bounds), reset, setOptions and setHessianType calls whose arrays have the documented lengths and in which hotstart is only used after a successful or failed init, no call reads or writes outside an array, dereferences NULL or uses an index -1, and every call returns. A hotstart before any init is the exception.", "quantifier": "all histories of any length, all dimensions, all data including NaN and infinities, all options, all initial memory contents", "why_tests_cant": "Out-of-bounds accesses depend on which index lists, statuses and factor sizes a long history leaves behind; a test sees only the histories it runs, and an access inside the same allocation is not seen by sanitizers.", "anchors": ["src/QProblemB.cpp: init, hotstart, solveInitialQP, solveQP, setupAuxiliaryQP, addBound, removeBound", "include/qpOASES/QProblemB.ipp"]}
{"id": "C63", "title": "Matrix duplicates are faithful", "statement": "duplicate() of every matrix class returns a matrix that represents the same entries with its own storage, so that any later operation gives the same result on the duplicate as on the original; duplicateSym() likewise.", "quantifier": "all dense matrices with any leading dimension, all sparse matrices with any pattern, with or without diagonal information", "why_tests_cant": "Wrong copies of padding, of the column pointer array or of the diagonal information only show for particular shapes.", "anchors": ["src/Matrices.cpp: DenseMatrix::duplicate, SymDenseMat::duplicateSym, SparseMatrix::duplicate, SparseMatrixRow::duplicate, SymSparseMat::duplicateSym"]}
{"id": "C64", "title": "Destroying every object leaves no library memory behind", "statement": "After any sequence of calls, once all solver objects are destroyed, every matrix object and every array that is still allocated is one the caller has to free.", "quantifier": "every call sequence with any number of objects, copies and assignments, whether calls succeed or fail", "why_tests_cant": "Leaks are silent and depend on the sequence of calls.", "anchors": ["src/SQProblem.cpp:SQProblem::setupNewAuxiliaryQP", "src/QProblemB.cpp:QProblemB::clear", "src/QProblem.cpp:QProblem::copy"]}
{"id": "C65", "title": "Taking back a deletion restores the Schur complement exactly", "statement": "deleteFromSchurComplement with undo allowed followed by undoDeleteFromSchurComplement restores every array and number of the object.", "quantifier": "every state reachable by updates, every index", "why_tests_cant": "The restored borders and sparse columns depend on the index and on the history of updates.", "anchors": ["src/SQProblemSchur.cpp:SQProblemSchur::deleteFromSchurComplement", "src/SQProblemSchur.cpp:SQProblemSchur::undoDeleteFromSchurComplement"]}
{"id": "C66", "title": "Success of the Schur complement step means the updated KKT system is solved", "statement": "After every history of updates, if stepCalcBacksolveSchur returns SUCCESSFUL_RETURN then sol and the extra components solve K sol + M p = rhs, M' sol + N p = q, where M and N are the columns added since the last factorisation, and p is written to the entries of the freed variables and added constraints.", "quantifier": "all update histories, right-hand sides and contents of fresh memory (exact arithmetic)", "why_tests_cant": "Unbounded update sequences; wrong results for singular S look like valid steps.", "anchors": ["src/SQProblemSchur.cpp:SQProblemSchur::stepCalcBacksolveSchur", "src/SQProblemSchur.cpp:SQProblemSchur::addToSchurComplement", "src/SQProblemSchur.cpp:SQProblemSchur::computeMTimes"]}
{"id": "C67", "title": "QProblem's step direction solves the linearised optimality system after every sequence of working set changes", "statement": "After every sequence of additions and removals of bounds and constraints and refactorisations that leaves the factors up to date, determineStepDirection terminates without undefined behaviour, and if it returns SUCCESSFUL_RETURN then H dx + dg = dy + A' dyA, active bounds and constraints move with their limits (or not at all if the caller says so), and the multipliers of inactive ones do not move. Otherwise T has a diagonal entry of magnitude at most EPS or the Hessian vanishes on a nontrivial null space.", "quantifier": "all problems, sequences of working set changes, data shifts, flags, numbers of refinement steps and contents of fresh memory (exact arithmetic)", "why_tests_cant": "Unbounded sequences of updates, all real data.", "anchors": ["src/QProblem.cpp:QProblem::determineStepDirection", "src/QProblem.cpp:QProblem::addConstraint", "src/QProblem.cpp:QProblem::removeBound"]}
{"id": "C68", "title": "A successful hotstart enforces the constraint limits it is given: every step stops at the first limit or multiplier in its way", "statement": "One step of QProblem's homotopy (performStep) along a direction that solves the linearised optimality system terminates without undefined behaviour, moves gradient, limits, iterate and multipliers by the same step length in [0,1], keeps stationarity, active limits and the stored distances Ax, Ax_l, Ax_u, lets no inactive variable or constraint pass a limit and no active multiplier change sign (up to epsDen), and either has length 1 or ends exactly where the reported blocking limit or multiplier is reached. A hotstart that reports success therefore respects the limits handed to it.", "quantifier": "all problems, iterates, working sets, matrix storages, data shifts and directions solving the linearised system (exact arithmetic)", "why_tests_cant": "All real data and all working sets; a missed limit is returned as a solution.", "anchors": ["src/QProblem.cpp:QProblem::performStep", "src/QProblem.cpp:QProblem::performRatioTest", "src/QProblem.cpp:QProblem::updateActivitiesForHotstart"]}
{"id": "C69", "title": "An iteration of QProblem's homotopy that reports success has solved the requested problem up to the tolerances", "statement": "From every state left by working set changes whose iterate is stationary, on its active limits and consistent with the stored distances, one iteration of solveQP runs without undefined behaviour up to the change of the working set. It either stops for the CPU limit, or for one of the two reasons of C67, or reports success, or something blocks and the iterate is again stationary, on its limits and has passed nothing. When it reports success the iterate satisfies the optimality conditions of the requested problem: stationarity up to the relative termination tolerance, and limits and signs up to that tolerance plus the tolerances of the ratio test.", "quantifier": "all problems, working set histories, iterates, requested gradients and limits, storages of A and options (exact arithmetic)", "why_tests_cant": "All real data and all histories of the factorisation; a wrong success is silent.", "anchors": ["src/QProblem.cpp:QProblem::solveQP", "src/QProblem.cpp:QProblem::determineDataShift", "src/QProblem.cpp:QProblem::getRelativeHomotopyLength", "src/QProblem.cpp:QProblem::performStep"]}
{"id": "C70", "title": "When a bound or constraint enters the working set of QProblem's homotopy, an exchange keeps the iterate optimal, and the verdict of infeasibility is right", "statement": "When a blocking bound or constraint enters the working set (changeActiveSet), problem data, iterate, types and options stay, the factorisation stays exact, and one of the following happens. It is independent of the active ones and joins them with its multiplier untouched. Or one active bound or constraint leaves in exchange: the one whose multiplier first reaches zero along the expression of the entering gradient by active ones; stationarity and active limits are kept, no multiplier changes its sign by more than epsDen times the step. Or nobody can leave, multipliers and working set are what they were, and then the limits reached further along the homotopy admit no feasible point. Or the addition fails and nothing has changed.", "quantifier": "all problems, histories of the working set, iterates, multipliers and entering bounds and constraints (exact arithmetic)", "why_tests_cant": "All real data and all working sets; a wrong exchange or verdict needs degenerate or badly scaled data to show.", "anchors": ["src/QProblem.cpp:QProblem::changeActiveSet", "src/QProblem.cpp:QProblem::addConstraint_ensureLI", "src/QProblem.cpp:QProblem::addBound_ensureLI"]}
{"id": "C71", "title": "A chain of hotstarts of QProblem without working set changes keeps returning solutions: small errors of sign do not build up unnoticed", "statement": "When successive calls of solveQP (as made by hotstart) report success without changing the working set, each of them returns a point that satisfies the optimality conditions of the problem it was asked to solve, up to the tolerances: stationarity up to the termination tolerance, limits met and multiplier signs right up to what was wrong at the start plus one epsDen and one EPS per call.", "quantifier": "all problems, histories of the working set, starting points and finite sequences of requests (exact arithmetic)", "why_tests_cant": "Needs sequences of problems whose data differ by amounts below the tolerances of the ratio test; a random sequence never accumulates them in one direction.", "anchors": ["src/QProblem.cpp:QProblem::solveQP", "src/QProblem.cpp:QProblem::performStep", "src/QProblem.cpp:QProblem::updateActivitiesForHotstart"]}
{"id": "C72", "title": "A bound or constraint leaves the working set of QProblem: only it becomes inactive, its multiplier becomes zero, factorisations stay exact, and it fails only without curvature", "statement": "When the homotopy stops because a multiplier becomes zero, changeActiveSet removes that bound or constraint: afterwards it is inactive with multiplier zero, all other statuses and multipliers, the iterate and the data are what they were, the TQ and Cholesky factorisations are exact again. It reports failure only if there is a direction, along which all other active ones stay active, without positive curvature. The iterate stays optimal, except that the contribution of the removed multiplier, if it was not exactly zero, is missing in the gradient.", "quantifier": "all states with exact factorisations, all bounds and constraints (exact arithmetic), without flipping and without test for zero curvature", "why_tests_cant": "The factorisation after a removal is only used implicitly; a wrong entry shows up, if at all, as a slightly wrong direction in later iterations.", "anchors": ["src/QProblem.cpp:QProblem::changeActiveSet", "src/QProblem.cpp:QProblem::removeBound", "src/QProblem.cpp:QProblem::removeConstraint"]}
{"id": "C73", "title": "The whole loop of QProblem::solveQP and hotstart: success after any number of working set changes means feasible, stationary and complementary for the requested problem, with an error growing at most linearly in their number", "statement": "If solveQP, started from a solved problem with exact factorisations and given a complete consistent request, reports success after k working set changes, then the status is SOLVED, the options are unchanged, the factorisations are exact for the final working set, and the final point satisfies the requested bounds and constraints, the stationarity condition for the requested gradient and complementarity. Limits are met up to the termination tolerance plus the initial error plus (k+1)(EPS + epsDen), stationarity up to the termination tolerance plus k times the largest multiplier that the ratio test overlooks (-epsNum) times the largest coefficient. The same holds for hotstart without far bounds and regularisation. If moreover the signs of the returned multipliers fit the limits that are met, the objective is optimal up to an explicit bound.", "quantifier": "all strictly convex and other problems whose Hessian is used as stored, all sizes, all requests with finite bounds, all numbers of iterations (exact arithmetic), without flipping, zero curvature tests, ramping, dropping, drift correction and refactorisation", "why_tests_cant": "The error of an iteration is hidden below the tolerances of one test; only an induction over the iterations shows that it adds up linearly and does not grow faster.", "anchors": ["src/QProblem.cpp:QProblem::solveQP", "src/QProblem.cpp:QProblem::performStep", "src/QProblem.cpp:QProblem::changeActiveSet", "src/QProblem.cpp:QProblem::hotstart"]}
{"id": "C74", "title": "QProblem's test for zero curvature leaves the removal from the working set alone when the curvature is large enough", "statement": "Let a bound or constraint leave the working set with enableNZCTests on. If the curvature of the Hessian in every direction that the removal opens up is at least mu times the square of the direction's maximum norm, and epsNZCTests times the sum of the absolute values in the row of the leaving bound or constraint (1 for a bound) is at most mu, then the test returns success and no exchange, changes nothing but scratch vectors, and changeActiveSet succeeds with exactly the effect it has without the test: factorisations exact for the new working set, iterate, data, options and status kept, the leaving multiplier zero.", "quantifier": "all sizes, matrices, working sets and leaving indices with exact factorisations, settled statuses and a triangular factor whose diagonal exceeds EPS; exact arithmetic, flipping off", "why_tests_cant": "Tests see single Hessians; that the relative threshold cannot be hit above an explicit curvature is a statement about all directions and all rows.", "anchors": ["src/QProblem.cpp:QProblem::ensureNonzeroCurvature", "src/QProblem.cpp:QProblem::removeBound", "src/QProblem.cpp:QProblem::removeConstraint", "src/QProblem.cpp:QProblem::changeActiveSet"]}
{"id": "C75", "title": "The jump made by QProblem's zero curvature test stops at the first limit ahead", "statement": "When the zero curvature test moves the iterate along a direction taken for flat, the length of the move is the largest that passes no limit of a bound or constraint, and the bound or constraint named for the exchange is one whose limit is met there.", "quantifier": "all index lists, distances and direction entries; all tolerances and starting lengths that are not negative", "why_tests_cant": "The jump is only made for directions of almost no curvature, and constraints without limits are rare in test problems; whether a distance belongs to a limit depends on the history of the stored residuals.", "anchors": ["src/QProblem.cpp:QProblem::performPlainRatioTest", "src/QProblem.cpp:QProblem::ensureNonzeroCurvature", "src/QProblem.cpp:QProblem::performStep"]}
