(** Types: enumerations of qpOASES.

    Follows include/qpOASES/MessageHandling.hpp:64-231 (enum returnValue) and
    include/qpOASES/Types.hpp:203-290 (status and type enumerations).  The
    enumerators are transcribed in order; [rv_code] is the integer the C++
    compiler assigns. *)
From Verif Require Import Base.

Inductive returnValue : Type :=
| TERMINAL_LIST_ELEMENT
| SUCCESSFUL_RETURN
| RET_DIV_BY_ZERO
| RET_INDEX_OUT_OF_BOUNDS
| RET_INVALID_ARGUMENTS
| RET_ERROR_UNDEFINED
| RET_WARNING_UNDEFINED
| RET_INFO_UNDEFINED
| RET_EWI_UNDEFINED
| RET_AVAILABLE_WITH_LINUX_ONLY
| RET_UNKNOWN_BUG
| RET_PRINTLEVEL_CHANGED
| RET_NOT_YET_IMPLEMENTED
| RET_INDEXLIST_MUST_BE_REORDERD
| RET_INDEXLIST_EXCEEDS_MAX_LENGTH
| RET_INDEXLIST_CORRUPTED
| RET_INDEXLIST_OUTOFBOUNDS
| RET_INDEXLIST_ADD_FAILED
| RET_INDEXLIST_INTERSECT_FAILED
| RET_INDEX_ALREADY_OF_DESIRED_STATUS
| RET_ADDINDEX_FAILED
| RET_REMOVEINDEX_FAILED
| RET_SWAPINDEX_FAILED
| RET_NOTHING_TO_DO
| RET_SETUP_BOUND_FAILED
| RET_SETUP_CONSTRAINT_FAILED
| RET_MOVING_BOUND_FAILED
| RET_MOVING_CONSTRAINT_FAILED
| RET_SHIFTING_FAILED
| RET_ROTATING_FAILED
| RET_QPOBJECT_NOT_SETUP
| RET_QP_ALREADY_INITIALISED
| RET_NO_INIT_WITH_STANDARD_SOLVER
| RET_RESET_FAILED
| RET_INIT_FAILED
| RET_INIT_FAILED_TQ
| RET_INIT_FAILED_CHOLESKY
| RET_INIT_FAILED_HOTSTART
| RET_INIT_FAILED_INFEASIBILITY
| RET_INIT_FAILED_UNBOUNDEDNESS
| RET_INIT_FAILED_REGULARISATION
| RET_INIT_SUCCESSFUL
| RET_OBTAINING_WORKINGSET_FAILED
| RET_SETUP_WORKINGSET_FAILED
| RET_SETUP_AUXILIARYQP_FAILED
| RET_NO_CHOLESKY_WITH_INITIAL_GUESS
| RET_NO_EXTERN_SOLVER
| RET_QP_UNBOUNDED
| RET_QP_INFEASIBLE
| RET_QP_NOT_SOLVED
| RET_QP_SOLVED
| RET_UNABLE_TO_SOLVE_QP
| RET_INITIALISATION_STARTED
| RET_HOTSTART_FAILED
| RET_HOTSTART_FAILED_TO_INIT
| RET_HOTSTART_FAILED_AS_QP_NOT_INITIALISED
| RET_ITERATION_STARTED
| RET_SHIFT_DETERMINATION_FAILED
| RET_STEPDIRECTION_DETERMINATION_FAILED
| RET_STEPLENGTH_DETERMINATION_FAILED
| RET_OPTIMAL_SOLUTION_FOUND
| RET_HOMOTOPY_STEP_FAILED
| RET_HOTSTART_STOPPED_INFEASIBILITY
| RET_HOTSTART_STOPPED_UNBOUNDEDNESS
| RET_WORKINGSET_UPDATE_FAILED
| RET_MAX_NWSR_REACHED
| RET_CONSTRAINTS_NOT_SPECIFIED
| RET_INVALID_FACTORISATION_FLAG
| RET_UNABLE_TO_SAVE_QPDATA
| RET_STEPDIRECTION_FAILED_TQ
| RET_STEPDIRECTION_FAILED_CHOLESKY
| RET_CYCLING_DETECTED
| RET_CYCLING_NOT_RESOLVED
| RET_CYCLING_RESOLVED
| RET_STEPSIZE
| RET_STEPSIZE_NONPOSITIVE
| RET_SETUPSUBJECTTOTYPE_FAILED
| RET_ADDCONSTRAINT_FAILED
| RET_ADDCONSTRAINT_FAILED_INFEASIBILITY
| RET_ADDBOUND_FAILED
| RET_ADDBOUND_FAILED_INFEASIBILITY
| RET_REMOVECONSTRAINT_FAILED
| RET_REMOVEBOUND_FAILED
| RET_REMOVE_FROM_ACTIVESET
| RET_ADD_TO_ACTIVESET
| RET_REMOVE_FROM_ACTIVESET_FAILED
| RET_ADD_TO_ACTIVESET_FAILED
| RET_CONSTRAINT_ALREADY_ACTIVE
| RET_ALL_CONSTRAINTS_ACTIVE
| RET_LINEARLY_DEPENDENT
| RET_LINEARLY_INDEPENDENT
| RET_LI_RESOLVED
| RET_ENSURELI_FAILED
| RET_ENSURELI_FAILED_TQ
| RET_ENSURELI_FAILED_NOINDEX
| RET_ENSURELI_FAILED_CYCLING
| RET_BOUND_ALREADY_ACTIVE
| RET_ALL_BOUNDS_ACTIVE
| RET_CONSTRAINT_NOT_ACTIVE
| RET_BOUND_NOT_ACTIVE
| RET_HESSIAN_NOT_SPD
| RET_HESSIAN_INDEFINITE
| RET_MATRIX_SHIFT_FAILED
| RET_MATRIX_FACTORISATION_FAILED
| RET_PRINT_ITERATION_FAILED
| RET_NO_GLOBAL_MESSAGE_OUTPUTFILE
| RET_DISABLECONSTRAINTS_FAILED
| RET_ENABLECONSTRAINTS_FAILED
| RET_ALREADY_ENABLED
| RET_ALREADY_DISABLED
| RET_NO_HESSIAN_SPECIFIED
| RET_USING_REGULARISATION
| RET_EPS_MUST_BE_POSITVE
| RET_REGSTEPS_MUST_BE_POSITVE
| RET_HESSIAN_ALREADY_REGULARISED
| RET_CANNOT_REGULARISE_IDENTITY
| RET_CANNOT_REGULARISE_SPARSE
| RET_NO_REGSTEP_NWSR
| RET_FEWER_REGSTEPS_NWSR
| RET_CHOLESKY_OF_ZERO_HESSIAN
| RET_ZERO_HESSIAN_ASSUMED
| RET_CONSTRAINTS_ARE_NOT_SCALED
| RET_INITIAL_BOUNDS_STATUS_NYI
| RET_ERROR_IN_CONSTRAINTPRODUCT
| RET_FIX_BOUNDS_FOR_LP
| RET_USE_REGULARISATION_FOR_LP
| RET_UPDATEMATRICES_FAILED
| RET_UPDATEMATRICES_FAILED_AS_QP_NOT_SOLVED
| RET_UNABLE_TO_OPEN_FILE
| RET_UNABLE_TO_WRITE_FILE
| RET_UNABLE_TO_READ_FILE
| RET_FILEDATA_INCONSISTENT
| RET_OPTIONS_ADJUSTED
| RET_UNABLE_TO_ANALYSE_QPROBLEM
| RET_NWSR_SET_TO_ONE
| RET_UNABLE_TO_READ_BENCHMARK
| RET_BENCHMARK_ABORTED
| RET_INITIAL_QP_SOLVED
| RET_QP_SOLUTION_STARTED
| RET_BENCHMARK_SUCCESSFUL
| RET_NO_DIAGONAL_AVAILABLE
| RET_DIAGONAL_NOT_INITIALISED
| RET_ENSURELI_DROPPED
| RET_KKT_MATRIX_SINGULAR
| RET_QR_FACTORISATION_FAILED
| RET_INERTIA_CORRECTION_FAILED
| RET_NO_SPARSE_SOLVER
| RET_SIMPLE_STATUS_P1
| RET_SIMPLE_STATUS_P0
| RET_SIMPLE_STATUS_M1
| RET_SIMPLE_STATUS_M2
| RET_SIMPLE_STATUS_M3.

(** MessageHandling.hpp:64-231: integer values of the enumerators. *)
Definition rv_code (r : returnValue) : Z :=
  match r with
  | TERMINAL_LIST_ELEMENT => -1
  | SUCCESSFUL_RETURN => 0
  | RET_DIV_BY_ZERO => 1
  | RET_INDEX_OUT_OF_BOUNDS => 2
  | RET_INVALID_ARGUMENTS => 3
  | RET_ERROR_UNDEFINED => 4
  | RET_WARNING_UNDEFINED => 5
  | RET_INFO_UNDEFINED => 6
  | RET_EWI_UNDEFINED => 7
  | RET_AVAILABLE_WITH_LINUX_ONLY => 8
  | RET_UNKNOWN_BUG => 9
  | RET_PRINTLEVEL_CHANGED => 10
  | RET_NOT_YET_IMPLEMENTED => 11
  | RET_INDEXLIST_MUST_BE_REORDERD => 12
  | RET_INDEXLIST_EXCEEDS_MAX_LENGTH => 13
  | RET_INDEXLIST_CORRUPTED => 14
  | RET_INDEXLIST_OUTOFBOUNDS => 15
  | RET_INDEXLIST_ADD_FAILED => 16
  | RET_INDEXLIST_INTERSECT_FAILED => 17
  | RET_INDEX_ALREADY_OF_DESIRED_STATUS => 18
  | RET_ADDINDEX_FAILED => 19
  | RET_REMOVEINDEX_FAILED => 20
  | RET_SWAPINDEX_FAILED => 21
  | RET_NOTHING_TO_DO => 22
  | RET_SETUP_BOUND_FAILED => 23
  | RET_SETUP_CONSTRAINT_FAILED => 24
  | RET_MOVING_BOUND_FAILED => 25
  | RET_MOVING_CONSTRAINT_FAILED => 26
  | RET_SHIFTING_FAILED => 27
  | RET_ROTATING_FAILED => 28
  | RET_QPOBJECT_NOT_SETUP => 29
  | RET_QP_ALREADY_INITIALISED => 30
  | RET_NO_INIT_WITH_STANDARD_SOLVER => 31
  | RET_RESET_FAILED => 32
  | RET_INIT_FAILED => 33
  | RET_INIT_FAILED_TQ => 34
  | RET_INIT_FAILED_CHOLESKY => 35
  | RET_INIT_FAILED_HOTSTART => 36
  | RET_INIT_FAILED_INFEASIBILITY => 37
  | RET_INIT_FAILED_UNBOUNDEDNESS => 38
  | RET_INIT_FAILED_REGULARISATION => 39
  | RET_INIT_SUCCESSFUL => 40
  | RET_OBTAINING_WORKINGSET_FAILED => 41
  | RET_SETUP_WORKINGSET_FAILED => 42
  | RET_SETUP_AUXILIARYQP_FAILED => 43
  | RET_NO_CHOLESKY_WITH_INITIAL_GUESS => 44
  | RET_NO_EXTERN_SOLVER => 45
  | RET_QP_UNBOUNDED => 46
  | RET_QP_INFEASIBLE => 47
  | RET_QP_NOT_SOLVED => 48
  | RET_QP_SOLVED => 49
  | RET_UNABLE_TO_SOLVE_QP => 50
  | RET_INITIALISATION_STARTED => 51
  | RET_HOTSTART_FAILED => 52
  | RET_HOTSTART_FAILED_TO_INIT => 53
  | RET_HOTSTART_FAILED_AS_QP_NOT_INITIALISED => 54
  | RET_ITERATION_STARTED => 55
  | RET_SHIFT_DETERMINATION_FAILED => 56
  | RET_STEPDIRECTION_DETERMINATION_FAILED => 57
  | RET_STEPLENGTH_DETERMINATION_FAILED => 58
  | RET_OPTIMAL_SOLUTION_FOUND => 59
  | RET_HOMOTOPY_STEP_FAILED => 60
  | RET_HOTSTART_STOPPED_INFEASIBILITY => 61
  | RET_HOTSTART_STOPPED_UNBOUNDEDNESS => 62
  | RET_WORKINGSET_UPDATE_FAILED => 63
  | RET_MAX_NWSR_REACHED => 64
  | RET_CONSTRAINTS_NOT_SPECIFIED => 65
  | RET_INVALID_FACTORISATION_FLAG => 66
  | RET_UNABLE_TO_SAVE_QPDATA => 67
  | RET_STEPDIRECTION_FAILED_TQ => 68
  | RET_STEPDIRECTION_FAILED_CHOLESKY => 69
  | RET_CYCLING_DETECTED => 70
  | RET_CYCLING_NOT_RESOLVED => 71
  | RET_CYCLING_RESOLVED => 72
  | RET_STEPSIZE => 73
  | RET_STEPSIZE_NONPOSITIVE => 74
  | RET_SETUPSUBJECTTOTYPE_FAILED => 75
  | RET_ADDCONSTRAINT_FAILED => 76
  | RET_ADDCONSTRAINT_FAILED_INFEASIBILITY => 77
  | RET_ADDBOUND_FAILED => 78
  | RET_ADDBOUND_FAILED_INFEASIBILITY => 79
  | RET_REMOVECONSTRAINT_FAILED => 80
  | RET_REMOVEBOUND_FAILED => 81
  | RET_REMOVE_FROM_ACTIVESET => 82
  | RET_ADD_TO_ACTIVESET => 83
  | RET_REMOVE_FROM_ACTIVESET_FAILED => 84
  | RET_ADD_TO_ACTIVESET_FAILED => 85
  | RET_CONSTRAINT_ALREADY_ACTIVE => 86
  | RET_ALL_CONSTRAINTS_ACTIVE => 87
  | RET_LINEARLY_DEPENDENT => 88
  | RET_LINEARLY_INDEPENDENT => 89
  | RET_LI_RESOLVED => 90
  | RET_ENSURELI_FAILED => 91
  | RET_ENSURELI_FAILED_TQ => 92
  | RET_ENSURELI_FAILED_NOINDEX => 93
  | RET_ENSURELI_FAILED_CYCLING => 94
  | RET_BOUND_ALREADY_ACTIVE => 95
  | RET_ALL_BOUNDS_ACTIVE => 96
  | RET_CONSTRAINT_NOT_ACTIVE => 97
  | RET_BOUND_NOT_ACTIVE => 98
  | RET_HESSIAN_NOT_SPD => 99
  | RET_HESSIAN_INDEFINITE => 100
  | RET_MATRIX_SHIFT_FAILED => 101
  | RET_MATRIX_FACTORISATION_FAILED => 102
  | RET_PRINT_ITERATION_FAILED => 103
  | RET_NO_GLOBAL_MESSAGE_OUTPUTFILE => 104
  | RET_DISABLECONSTRAINTS_FAILED => 105
  | RET_ENABLECONSTRAINTS_FAILED => 106
  | RET_ALREADY_ENABLED => 107
  | RET_ALREADY_DISABLED => 108
  | RET_NO_HESSIAN_SPECIFIED => 109
  | RET_USING_REGULARISATION => 110
  | RET_EPS_MUST_BE_POSITVE => 111
  | RET_REGSTEPS_MUST_BE_POSITVE => 112
  | RET_HESSIAN_ALREADY_REGULARISED => 113
  | RET_CANNOT_REGULARISE_IDENTITY => 114
  | RET_CANNOT_REGULARISE_SPARSE => 115
  | RET_NO_REGSTEP_NWSR => 116
  | RET_FEWER_REGSTEPS_NWSR => 117
  | RET_CHOLESKY_OF_ZERO_HESSIAN => 118
  | RET_ZERO_HESSIAN_ASSUMED => 119
  | RET_CONSTRAINTS_ARE_NOT_SCALED => 120
  | RET_INITIAL_BOUNDS_STATUS_NYI => 121
  | RET_ERROR_IN_CONSTRAINTPRODUCT => 122
  | RET_FIX_BOUNDS_FOR_LP => 123
  | RET_USE_REGULARISATION_FOR_LP => 124
  | RET_UPDATEMATRICES_FAILED => 125
  | RET_UPDATEMATRICES_FAILED_AS_QP_NOT_SOLVED => 126
  | RET_UNABLE_TO_OPEN_FILE => 127
  | RET_UNABLE_TO_WRITE_FILE => 128
  | RET_UNABLE_TO_READ_FILE => 129
  | RET_FILEDATA_INCONSISTENT => 130
  | RET_OPTIONS_ADJUSTED => 131
  | RET_UNABLE_TO_ANALYSE_QPROBLEM => 132
  | RET_NWSR_SET_TO_ONE => 133
  | RET_UNABLE_TO_READ_BENCHMARK => 134
  | RET_BENCHMARK_ABORTED => 135
  | RET_INITIAL_QP_SOLVED => 136
  | RET_QP_SOLUTION_STARTED => 137
  | RET_BENCHMARK_SUCCESSFUL => 138
  | RET_NO_DIAGONAL_AVAILABLE => 139
  | RET_DIAGONAL_NOT_INITIALISED => 140
  | RET_ENSURELI_DROPPED => 141
  | RET_KKT_MATRIX_SINGULAR => 142
  | RET_QR_FACTORISATION_FAILED => 143
  | RET_INERTIA_CORRECTION_FAILED => 144
  | RET_NO_SPARSE_SOLVER => 145
  | RET_SIMPLE_STATUS_P1 => 146
  | RET_SIMPLE_STATUS_P0 => 147
  | RET_SIMPLE_STATUS_M1 => 148
  | RET_SIMPLE_STATUS_M2 => 149
  | RET_SIMPLE_STATUS_M3 => 150
  end.

Definition rv_of_code (z : Z) : option returnValue :=
  match z with
  | -1 => Some TERMINAL_LIST_ELEMENT
  | 0 => Some SUCCESSFUL_RETURN
  | 1 => Some RET_DIV_BY_ZERO
  | 2 => Some RET_INDEX_OUT_OF_BOUNDS
  | 3 => Some RET_INVALID_ARGUMENTS
  | 4 => Some RET_ERROR_UNDEFINED
  | 5 => Some RET_WARNING_UNDEFINED
  | 6 => Some RET_INFO_UNDEFINED
  | 7 => Some RET_EWI_UNDEFINED
  | 8 => Some RET_AVAILABLE_WITH_LINUX_ONLY
  | 9 => Some RET_UNKNOWN_BUG
  | 10 => Some RET_PRINTLEVEL_CHANGED
  | 11 => Some RET_NOT_YET_IMPLEMENTED
  | 12 => Some RET_INDEXLIST_MUST_BE_REORDERD
  | 13 => Some RET_INDEXLIST_EXCEEDS_MAX_LENGTH
  | 14 => Some RET_INDEXLIST_CORRUPTED
  | 15 => Some RET_INDEXLIST_OUTOFBOUNDS
  | 16 => Some RET_INDEXLIST_ADD_FAILED
  | 17 => Some RET_INDEXLIST_INTERSECT_FAILED
  | 18 => Some RET_INDEX_ALREADY_OF_DESIRED_STATUS
  | 19 => Some RET_ADDINDEX_FAILED
  | 20 => Some RET_REMOVEINDEX_FAILED
  | 21 => Some RET_SWAPINDEX_FAILED
  | 22 => Some RET_NOTHING_TO_DO
  | 23 => Some RET_SETUP_BOUND_FAILED
  | 24 => Some RET_SETUP_CONSTRAINT_FAILED
  | 25 => Some RET_MOVING_BOUND_FAILED
  | 26 => Some RET_MOVING_CONSTRAINT_FAILED
  | 27 => Some RET_SHIFTING_FAILED
  | 28 => Some RET_ROTATING_FAILED
  | 29 => Some RET_QPOBJECT_NOT_SETUP
  | 30 => Some RET_QP_ALREADY_INITIALISED
  | 31 => Some RET_NO_INIT_WITH_STANDARD_SOLVER
  | 32 => Some RET_RESET_FAILED
  | 33 => Some RET_INIT_FAILED
  | 34 => Some RET_INIT_FAILED_TQ
  | 35 => Some RET_INIT_FAILED_CHOLESKY
  | 36 => Some RET_INIT_FAILED_HOTSTART
  | 37 => Some RET_INIT_FAILED_INFEASIBILITY
  | 38 => Some RET_INIT_FAILED_UNBOUNDEDNESS
  | 39 => Some RET_INIT_FAILED_REGULARISATION
  | 40 => Some RET_INIT_SUCCESSFUL
  | 41 => Some RET_OBTAINING_WORKINGSET_FAILED
  | 42 => Some RET_SETUP_WORKINGSET_FAILED
  | 43 => Some RET_SETUP_AUXILIARYQP_FAILED
  | 44 => Some RET_NO_CHOLESKY_WITH_INITIAL_GUESS
  | 45 => Some RET_NO_EXTERN_SOLVER
  | 46 => Some RET_QP_UNBOUNDED
  | 47 => Some RET_QP_INFEASIBLE
  | 48 => Some RET_QP_NOT_SOLVED
  | 49 => Some RET_QP_SOLVED
  | 50 => Some RET_UNABLE_TO_SOLVE_QP
  | 51 => Some RET_INITIALISATION_STARTED
  | 52 => Some RET_HOTSTART_FAILED
  | 53 => Some RET_HOTSTART_FAILED_TO_INIT
  | 54 => Some RET_HOTSTART_FAILED_AS_QP_NOT_INITIALISED
  | 55 => Some RET_ITERATION_STARTED
  | 56 => Some RET_SHIFT_DETERMINATION_FAILED
  | 57 => Some RET_STEPDIRECTION_DETERMINATION_FAILED
  | 58 => Some RET_STEPLENGTH_DETERMINATION_FAILED
  | 59 => Some RET_OPTIMAL_SOLUTION_FOUND
  | 60 => Some RET_HOMOTOPY_STEP_FAILED
  | 61 => Some RET_HOTSTART_STOPPED_INFEASIBILITY
  | 62 => Some RET_HOTSTART_STOPPED_UNBOUNDEDNESS
  | 63 => Some RET_WORKINGSET_UPDATE_FAILED
  | 64 => Some RET_MAX_NWSR_REACHED
  | 65 => Some RET_CONSTRAINTS_NOT_SPECIFIED
  | 66 => Some RET_INVALID_FACTORISATION_FLAG
  | 67 => Some RET_UNABLE_TO_SAVE_QPDATA
  | 68 => Some RET_STEPDIRECTION_FAILED_TQ
  | 69 => Some RET_STEPDIRECTION_FAILED_CHOLESKY
  | 70 => Some RET_CYCLING_DETECTED
  | 71 => Some RET_CYCLING_NOT_RESOLVED
  | 72 => Some RET_CYCLING_RESOLVED
  | 73 => Some RET_STEPSIZE
  | 74 => Some RET_STEPSIZE_NONPOSITIVE
  | 75 => Some RET_SETUPSUBJECTTOTYPE_FAILED
  | 76 => Some RET_ADDCONSTRAINT_FAILED
  | 77 => Some RET_ADDCONSTRAINT_FAILED_INFEASIBILITY
  | 78 => Some RET_ADDBOUND_FAILED
  | 79 => Some RET_ADDBOUND_FAILED_INFEASIBILITY
  | 80 => Some RET_REMOVECONSTRAINT_FAILED
  | 81 => Some RET_REMOVEBOUND_FAILED
  | 82 => Some RET_REMOVE_FROM_ACTIVESET
  | 83 => Some RET_ADD_TO_ACTIVESET
  | 84 => Some RET_REMOVE_FROM_ACTIVESET_FAILED
  | 85 => Some RET_ADD_TO_ACTIVESET_FAILED
  | 86 => Some RET_CONSTRAINT_ALREADY_ACTIVE
  | 87 => Some RET_ALL_CONSTRAINTS_ACTIVE
  | 88 => Some RET_LINEARLY_DEPENDENT
  | 89 => Some RET_LINEARLY_INDEPENDENT
  | 90 => Some RET_LI_RESOLVED
  | 91 => Some RET_ENSURELI_FAILED
  | 92 => Some RET_ENSURELI_FAILED_TQ
  | 93 => Some RET_ENSURELI_FAILED_NOINDEX
  | 94 => Some RET_ENSURELI_FAILED_CYCLING
  | 95 => Some RET_BOUND_ALREADY_ACTIVE
  | 96 => Some RET_ALL_BOUNDS_ACTIVE
  | 97 => Some RET_CONSTRAINT_NOT_ACTIVE
  | 98 => Some RET_BOUND_NOT_ACTIVE
  | 99 => Some RET_HESSIAN_NOT_SPD
  | 100 => Some RET_HESSIAN_INDEFINITE
  | 101 => Some RET_MATRIX_SHIFT_FAILED
  | 102 => Some RET_MATRIX_FACTORISATION_FAILED
  | 103 => Some RET_PRINT_ITERATION_FAILED
  | 104 => Some RET_NO_GLOBAL_MESSAGE_OUTPUTFILE
  | 105 => Some RET_DISABLECONSTRAINTS_FAILED
  | 106 => Some RET_ENABLECONSTRAINTS_FAILED
  | 107 => Some RET_ALREADY_ENABLED
  | 108 => Some RET_ALREADY_DISABLED
  | 109 => Some RET_NO_HESSIAN_SPECIFIED
  | 110 => Some RET_USING_REGULARISATION
  | 111 => Some RET_EPS_MUST_BE_POSITVE
  | 112 => Some RET_REGSTEPS_MUST_BE_POSITVE
  | 113 => Some RET_HESSIAN_ALREADY_REGULARISED
  | 114 => Some RET_CANNOT_REGULARISE_IDENTITY
  | 115 => Some RET_CANNOT_REGULARISE_SPARSE
  | 116 => Some RET_NO_REGSTEP_NWSR
  | 117 => Some RET_FEWER_REGSTEPS_NWSR
  | 118 => Some RET_CHOLESKY_OF_ZERO_HESSIAN
  | 119 => Some RET_ZERO_HESSIAN_ASSUMED
  | 120 => Some RET_CONSTRAINTS_ARE_NOT_SCALED
  | 121 => Some RET_INITIAL_BOUNDS_STATUS_NYI
  | 122 => Some RET_ERROR_IN_CONSTRAINTPRODUCT
  | 123 => Some RET_FIX_BOUNDS_FOR_LP
  | 124 => Some RET_USE_REGULARISATION_FOR_LP
  | 125 => Some RET_UPDATEMATRICES_FAILED
  | 126 => Some RET_UPDATEMATRICES_FAILED_AS_QP_NOT_SOLVED
  | 127 => Some RET_UNABLE_TO_OPEN_FILE
  | 128 => Some RET_UNABLE_TO_WRITE_FILE
  | 129 => Some RET_UNABLE_TO_READ_FILE
  | 130 => Some RET_FILEDATA_INCONSISTENT
  | 131 => Some RET_OPTIONS_ADJUSTED
  | 132 => Some RET_UNABLE_TO_ANALYSE_QPROBLEM
  | 133 => Some RET_NWSR_SET_TO_ONE
  | 134 => Some RET_UNABLE_TO_READ_BENCHMARK
  | 135 => Some RET_BENCHMARK_ABORTED
  | 136 => Some RET_INITIAL_QP_SOLVED
  | 137 => Some RET_QP_SOLUTION_STARTED
  | 138 => Some RET_BENCHMARK_SUCCESSFUL
  | 139 => Some RET_NO_DIAGONAL_AVAILABLE
  | 140 => Some RET_DIAGONAL_NOT_INITIALISED
  | 141 => Some RET_ENSURELI_DROPPED
  | 142 => Some RET_KKT_MATRIX_SINGULAR
  | 143 => Some RET_QR_FACTORISATION_FAILED
  | 144 => Some RET_INERTIA_CORRECTION_FAILED
  | 145 => Some RET_NO_SPARSE_SOLVER
  | 146 => Some RET_SIMPLE_STATUS_P1
  | 147 => Some RET_SIMPLE_STATUS_P0
  | 148 => Some RET_SIMPLE_STATUS_M1
  | 149 => Some RET_SIMPLE_STATUS_M2
  | 150 => Some RET_SIMPLE_STATUS_M3
  | _ => None
  end.

Definition rv_eqb (a b : returnValue) : bool := rv_code a =? rv_code b.

(** Types.hpp:233-244 *)
Inductive QProblemStatus : Type :=
| QPS_NOTINITIALISED | QPS_PREPARINGAUXILIARYQP | QPS_AUXILIARYQPSOLVED
| QPS_PERFORMINGHOMOTOPY | QPS_HOMOTOPYQPSOLVED | QPS_SOLVED.

(** Types.hpp:248-257 *)
Inductive HessianType : Type :=
| HST_ZERO | HST_IDENTITY | HST_POSDEF | HST_POSDEF_NULLSPACE | HST_SEMIDEF
| HST_INDEF | HST_UNKNOWN.

(** Types.hpp:261-268 *)
Inductive SubjectToType : Type :=
| ST_UNBOUNDED | ST_BOUNDED | ST_EQUALITY | ST_DISABLED | ST_UNKNOWN.

(** Types.hpp:272-280 *)
Inductive SubjectToStatus : Type :=
| ST_LOWER | ST_INACTIVE | ST_UPPER | ST_INFEASIBLE_LOWER | ST_INFEASIBLE_UPPER
| ST_UNDEFINED.

(** Types.hpp:212-220 *)
Inductive PrintLevel : Type :=
| PL_DEBUG_ITER | PL_TABULAR | PL_NONE | PL_LOW | PL_MEDIUM | PL_HIGH.

(** Types.hpp:224-228 *)
Inductive VisibilityStatus : Type := VS_HIDDEN | VS_VISIBLE.

(** Types.hpp:283-290 *)
Inductive SchurUpdateType : Type :=
| SUT_VarFixed | SUT_VarFreed | SUT_ConAdded | SUT_ConRemoved | SUT_UNDEFINED.

Definition qps_eq_dec (a b : QProblemStatus) : {a = b} + {a <> b}.
Proof. decide equality. Defined.
Definition hst_eq_dec (a b : HessianType) : {a = b} + {a <> b}.
Proof. decide equality. Defined.
Definition stt_eq_dec (a b : SubjectToType) : {a = b} + {a <> b}.
Proof. decide equality. Defined.
Definition sts_eq_dec (a b : SubjectToStatus) : {a = b} + {a <> b}.
Proof. decide equality. Defined.
Definition pl_eq_dec (a b : PrintLevel) : {a = b} + {a <> b}.
Proof. decide equality. Defined.
Definition vs_eq_dec (a b : VisibilityStatus) : {a = b} + {a <> b}.
Proof. decide equality. Defined.

(** Integer value of a SubjectToStatus (Types.hpp:272-280). *)
Definition sts_code (s : SubjectToStatus) : Z :=
  match s with
  | ST_LOWER => -1 | ST_INACTIVE => 0 | ST_UPPER => 1
  | ST_INFEASIBLE_LOWER => 2 | ST_INFEASIBLE_UPPER => 3 | ST_UNDEFINED => 4
  end.

(** ** Facts *)

Lemma rv_of_code_code r : rv_of_code (rv_code r) = Some r.
Proof. destruct r; reflexivity. Qed.

Lemma rv_code_inj a b : rv_code a = rv_code b -> a = b.
Proof.
  intros H. assert (E : Some a = Some b) by (rewrite <- !rv_of_code_code; now rewrite H).
  now injection E.
Qed.

Lemma rv_eqb_eq a b : rv_eqb a b = true <-> a = b.
Proof.
  unfold rv_eqb. rewrite Z.eqb_eq. split; [apply rv_code_inj | now intros ->].
Qed.

Lemma rv_eqb_neq a b : rv_eqb a b = false <-> a <> b.
Proof.
  rewrite <- rv_eqb_eq. destruct (rv_eqb a b); split; congruence.
Qed.

Definition rv_eq_dec (a b : returnValue) : {a = b} + {a <> b}.
Proof.
  destruct (rv_eqb a b) eqn:E; [left; now apply rv_eqb_eq | right; now apply rv_eqb_neq].
Defined.

Notation "a '=r?' b" := (rv_eqb a b) (at level 70).
