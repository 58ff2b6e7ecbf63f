(** Model of the message handler and of getSimpleStatus.

    Follows src/MessageHandling.cpp, include/qpOASES/MessageHandling.ipp and
    src/Utils.cpp:909-957.  Texts and the output stream are not modelled; the
    ghost field [mh_log] records which messages were printed, newest first. *)
From Verif Require Import Base Types.

Inductive msgKind : Type := KError | KWarning | KInfo.

Record mh := mkMh {
  mh_err : VisibilityStatus;      (* errorVisibility *)
  mh_warn : VisibilityStatus;     (* warningVisibility *)
  mh_info : VisibilityStatus;     (* infoVisibility *)
  mh_cnt : Z;                     (* errorCount *)
  mh_log : list (msgKind * returnValue)   (* ghost: printed messages *)
}.

Definition visible (v : VisibilityStatus) : bool := match v with VS_VISIBLE => true | VS_HIDDEN => false end.

(** MessageHandling.cpp:56-224: key and global visibility of each entry. *)
Definition returnValueList : list (returnValue * VisibilityStatus) :=
  [
    (SUCCESSFUL_RETURN, VS_VISIBLE) ;
    (RET_DIV_BY_ZERO, VS_VISIBLE) ;
    (RET_INDEX_OUT_OF_BOUNDS, VS_VISIBLE) ;
    (RET_INVALID_ARGUMENTS, VS_VISIBLE) ;
    (RET_ERROR_UNDEFINED, VS_VISIBLE) ;
    (RET_WARNING_UNDEFINED, VS_VISIBLE) ;
    (RET_INFO_UNDEFINED, VS_VISIBLE) ;
    (RET_EWI_UNDEFINED, VS_VISIBLE) ;
    (RET_AVAILABLE_WITH_LINUX_ONLY, VS_HIDDEN) ;
    (RET_UNKNOWN_BUG, VS_VISIBLE) ;
    (RET_PRINTLEVEL_CHANGED, VS_VISIBLE) ;
    (RET_NOT_YET_IMPLEMENTED, VS_VISIBLE) ;
    (RET_INDEXLIST_MUST_BE_REORDERD, VS_VISIBLE) ;
    (RET_INDEXLIST_EXCEEDS_MAX_LENGTH, VS_VISIBLE) ;
    (RET_INDEXLIST_CORRUPTED, VS_VISIBLE) ;
    (RET_INDEXLIST_OUTOFBOUNDS, VS_VISIBLE) ;
    (RET_INDEXLIST_ADD_FAILED, VS_VISIBLE) ;
    (RET_INDEXLIST_INTERSECT_FAILED, VS_VISIBLE) ;
    (RET_INDEX_ALREADY_OF_DESIRED_STATUS, VS_VISIBLE) ;
    (RET_ADDINDEX_FAILED, VS_VISIBLE) ;
    (RET_REMOVEINDEX_FAILED, VS_VISIBLE) ;
    (RET_SWAPINDEX_FAILED, VS_VISIBLE) ;
    (RET_NOTHING_TO_DO, VS_VISIBLE) ;
    (RET_SETUP_BOUND_FAILED, VS_VISIBLE) ;
    (RET_SETUP_CONSTRAINT_FAILED, VS_VISIBLE) ;
    (RET_MOVING_BOUND_FAILED, VS_VISIBLE) ;
    (RET_MOVING_CONSTRAINT_FAILED, VS_VISIBLE) ;
    (RET_SHIFTING_FAILED, VS_VISIBLE) ;
    (RET_ROTATING_FAILED, VS_VISIBLE) ;
    (RET_QPOBJECT_NOT_SETUP, VS_VISIBLE) ;
    (RET_QP_ALREADY_INITIALISED, VS_VISIBLE) ;
    (RET_NO_INIT_WITH_STANDARD_SOLVER, VS_VISIBLE) ;
    (RET_RESET_FAILED, VS_VISIBLE) ;
    (RET_INIT_FAILED, VS_VISIBLE) ;
    (RET_INIT_FAILED_TQ, VS_VISIBLE) ;
    (RET_INIT_FAILED_CHOLESKY, VS_VISIBLE) ;
    (RET_INIT_FAILED_HOTSTART, VS_VISIBLE) ;
    (RET_INIT_FAILED_INFEASIBILITY, VS_VISIBLE) ;
    (RET_INIT_FAILED_UNBOUNDEDNESS, VS_VISIBLE) ;
    (RET_INIT_FAILED_REGULARISATION, VS_VISIBLE) ;
    (RET_INIT_SUCCESSFUL, VS_VISIBLE) ;
    (RET_OBTAINING_WORKINGSET_FAILED, VS_VISIBLE) ;
    (RET_SETUP_WORKINGSET_FAILED, VS_VISIBLE) ;
    (RET_SETUP_AUXILIARYQP_FAILED, VS_VISIBLE) ;
    (RET_NO_CHOLESKY_WITH_INITIAL_GUESS, VS_VISIBLE) ;
    (RET_NO_EXTERN_SOLVER, VS_VISIBLE) ;
    (RET_QP_UNBOUNDED, VS_VISIBLE) ;
    (RET_QP_INFEASIBLE, VS_VISIBLE) ;
    (RET_QP_NOT_SOLVED, VS_VISIBLE) ;
    (RET_QP_SOLVED, VS_VISIBLE) ;
    (RET_UNABLE_TO_SOLVE_QP, VS_VISIBLE) ;
    (RET_INITIALISATION_STARTED, VS_VISIBLE) ;
    (RET_HOTSTART_FAILED, VS_VISIBLE) ;
    (RET_HOTSTART_FAILED_TO_INIT, VS_VISIBLE) ;
    (RET_HOTSTART_FAILED_AS_QP_NOT_INITIALISED, VS_VISIBLE) ;
    (RET_ITERATION_STARTED, VS_VISIBLE) ;
    (RET_SHIFT_DETERMINATION_FAILED, VS_VISIBLE) ;
    (RET_STEPDIRECTION_DETERMINATION_FAILED, VS_VISIBLE) ;
    (RET_STEPLENGTH_DETERMINATION_FAILED, VS_VISIBLE) ;
    (RET_OPTIMAL_SOLUTION_FOUND, VS_VISIBLE) ;
    (RET_HOMOTOPY_STEP_FAILED, VS_VISIBLE) ;
    (RET_HOTSTART_STOPPED_INFEASIBILITY, VS_VISIBLE) ;
    (RET_HOTSTART_STOPPED_UNBOUNDEDNESS, VS_VISIBLE) ;
    (RET_WORKINGSET_UPDATE_FAILED, VS_VISIBLE) ;
    (RET_MAX_NWSR_REACHED, VS_VISIBLE) ;
    (RET_CONSTRAINTS_NOT_SPECIFIED, VS_VISIBLE) ;
    (RET_INVALID_FACTORISATION_FLAG, VS_VISIBLE) ;
    (RET_UNABLE_TO_SAVE_QPDATA, VS_VISIBLE) ;
    (RET_STEPDIRECTION_FAILED_TQ, VS_VISIBLE) ;
    (RET_STEPDIRECTION_FAILED_CHOLESKY, VS_VISIBLE) ;
    (RET_CYCLING_DETECTED, VS_VISIBLE) ;
    (RET_CYCLING_NOT_RESOLVED, VS_VISIBLE) ;
    (RET_CYCLING_RESOLVED, VS_VISIBLE) ;
    (RET_STEPSIZE, VS_VISIBLE) ;
    (RET_STEPSIZE_NONPOSITIVE, VS_VISIBLE) ;
    (RET_SETUPSUBJECTTOTYPE_FAILED, VS_VISIBLE) ;
    (RET_ADDCONSTRAINT_FAILED, VS_VISIBLE) ;
    (RET_ADDCONSTRAINT_FAILED_INFEASIBILITY, VS_VISIBLE) ;
    (RET_ADDBOUND_FAILED, VS_VISIBLE) ;
    (RET_ADDBOUND_FAILED_INFEASIBILITY, VS_VISIBLE) ;
    (RET_REMOVECONSTRAINT_FAILED, VS_VISIBLE) ;
    (RET_REMOVEBOUND_FAILED, VS_VISIBLE) ;
    (RET_REMOVE_FROM_ACTIVESET, VS_VISIBLE) ;
    (RET_ADD_TO_ACTIVESET, VS_VISIBLE) ;
    (RET_REMOVE_FROM_ACTIVESET_FAILED, VS_VISIBLE) ;
    (RET_ADD_TO_ACTIVESET_FAILED, VS_VISIBLE) ;
    (RET_CONSTRAINT_ALREADY_ACTIVE, VS_VISIBLE) ;
    (RET_ALL_CONSTRAINTS_ACTIVE, VS_VISIBLE) ;
    (RET_LINEARLY_DEPENDENT, VS_VISIBLE) ;
    (RET_LINEARLY_INDEPENDENT, VS_VISIBLE) ;
    (RET_LI_RESOLVED, VS_VISIBLE) ;
    (RET_ENSURELI_FAILED, VS_VISIBLE) ;
    (RET_ENSURELI_FAILED_TQ, VS_VISIBLE) ;
    (RET_ENSURELI_FAILED_NOINDEX, VS_VISIBLE) ;
    (RET_ENSURELI_FAILED_CYCLING, VS_VISIBLE) ;
    (RET_BOUND_ALREADY_ACTIVE, VS_VISIBLE) ;
    (RET_ALL_BOUNDS_ACTIVE, VS_VISIBLE) ;
    (RET_CONSTRAINT_NOT_ACTIVE, VS_VISIBLE) ;
    (RET_BOUND_NOT_ACTIVE, VS_VISIBLE) ;
    (RET_HESSIAN_NOT_SPD, VS_VISIBLE) ;
    (RET_HESSIAN_INDEFINITE, VS_VISIBLE) ;
    (RET_MATRIX_SHIFT_FAILED, VS_VISIBLE) ;
    (RET_MATRIX_FACTORISATION_FAILED, VS_VISIBLE) ;
    (RET_PRINT_ITERATION_FAILED, VS_VISIBLE) ;
    (RET_NO_GLOBAL_MESSAGE_OUTPUTFILE, VS_VISIBLE) ;
    (RET_DISABLECONSTRAINTS_FAILED, VS_VISIBLE) ;
    (RET_ENABLECONSTRAINTS_FAILED, VS_VISIBLE) ;
    (RET_ALREADY_ENABLED, VS_VISIBLE) ;
    (RET_ALREADY_DISABLED, VS_VISIBLE) ;
    (RET_NO_HESSIAN_SPECIFIED, VS_VISIBLE) ;
    (RET_USING_REGULARISATION, VS_VISIBLE) ;
    (RET_EPS_MUST_BE_POSITVE, VS_VISIBLE) ;
    (RET_REGSTEPS_MUST_BE_POSITVE, VS_VISIBLE) ;
    (RET_HESSIAN_ALREADY_REGULARISED, VS_VISIBLE) ;
    (RET_CANNOT_REGULARISE_IDENTITY, VS_VISIBLE) ;
    (RET_CANNOT_REGULARISE_SPARSE, VS_VISIBLE) ;
    (RET_NO_REGSTEP_NWSR, VS_VISIBLE) ;
    (RET_FEWER_REGSTEPS_NWSR, VS_VISIBLE) ;
    (RET_CHOLESKY_OF_ZERO_HESSIAN, VS_VISIBLE) ;
    (RET_ZERO_HESSIAN_ASSUMED, VS_VISIBLE) ;
    (RET_CONSTRAINTS_ARE_NOT_SCALED, VS_VISIBLE) ;
    (RET_INITIAL_BOUNDS_STATUS_NYI, VS_VISIBLE) ;
    (RET_ERROR_IN_CONSTRAINTPRODUCT, VS_VISIBLE) ;
    (RET_FIX_BOUNDS_FOR_LP, VS_VISIBLE) ;
    (RET_USE_REGULARISATION_FOR_LP, VS_VISIBLE) ;
    (RET_UPDATEMATRICES_FAILED, VS_VISIBLE) ;
    (RET_UPDATEMATRICES_FAILED_AS_QP_NOT_SOLVED, VS_VISIBLE) ;
    (RET_UNABLE_TO_OPEN_FILE, VS_VISIBLE) ;
    (RET_UNABLE_TO_WRITE_FILE, VS_VISIBLE) ;
    (RET_UNABLE_TO_READ_FILE, VS_VISIBLE) ;
    (RET_FILEDATA_INCONSISTENT, VS_VISIBLE) ;
    (RET_OPTIONS_ADJUSTED, VS_VISIBLE) ;
    (RET_UNABLE_TO_ANALYSE_QPROBLEM, VS_VISIBLE) ;
    (RET_NWSR_SET_TO_ONE, VS_VISIBLE) ;
    (RET_UNABLE_TO_READ_BENCHMARK, VS_VISIBLE) ;
    (RET_BENCHMARK_ABORTED, VS_VISIBLE) ;
    (RET_INITIAL_QP_SOLVED, VS_VISIBLE) ;
    (RET_QP_SOLUTION_STARTED, VS_VISIBLE) ;
    (RET_BENCHMARK_SUCCESSFUL, VS_VISIBLE) ;
    (RET_NO_DIAGONAL_AVAILABLE, VS_VISIBLE) ;
    (RET_DIAGONAL_NOT_INITIALISED, VS_VISIBLE) ;
    (RET_ENSURELI_DROPPED, VS_VISIBLE) ;
    (RET_KKT_MATRIX_SINGULAR, VS_VISIBLE) ;
    (RET_QR_FACTORISATION_FAILED, VS_VISIBLE) ;
    (RET_INERTIA_CORRECTION_FAILED, VS_VISIBLE) ;
    (RET_NO_SPARSE_SOLVER, VS_VISIBLE) ;
    (RET_SIMPLE_STATUS_P1, VS_VISIBLE) ;
    (RET_SIMPLE_STATUS_P0, VS_VISIBLE) ;
    (RET_SIMPLE_STATUS_M1, VS_VISIBLE) ;
    (RET_SIMPLE_STATUS_M2, VS_VISIBLE) ;
    (RET_SIMPLE_STATUS_M3, VS_VISIBLE) ;
    (TERMINAL_LIST_ELEMENT, VS_HIDDEN)
  ].

(** The search loop of throwMessage, MessageHandling.cpp:491-498: first position
    with the terminal element or the wanted key.  The loop condition reads the
    array, so running past its end is UB. *)
Fixpoint find_key_n (fuel : nat) (r : returnValue) (keypos : Z) : res Z :=
  match fuel with
  | O => Hang
  | S f =>
    e <- rd returnValueList keypos ;;
    if rv_eqb (fst e) TERMINAL_LIST_ELEMENT then Ok keypos
    else if rv_eqb (fst e) r then Ok keypos
    else find_key_n f r (keypos + 1)
  end.
Definition find_key (r : returnValue) : res Z := find_key_n 400 r 0.

(** MessageHandling.cpp:457-559 and 343-405.  throwError and throwMessage call
    each other; [fuel] bounds that recursion. *)
Definition set_mh_cnt c s := mkMh (mh_err s) (mh_warn s) (mh_info s) c (mh_log s).
Definition set_mh_info v s := mkMh (mh_err s) (mh_warn s) v (mh_cnt s) (mh_log s).
Definition set_mh_warn v s := mkMh (mh_err s) v (mh_info s) (mh_cnt s) (mh_log s).
Definition set_mh_err v s := mkMh v (mh_warn s) (mh_info s) (mh_cnt s) (mh_log s).
Definition logm k r s := mkMh (mh_err s) (mh_warn s) (mh_info s) (mh_cnt s) ((k, r) :: mh_log s).

(** MessageHandling.cpp:472-486: number of blanks, clipped to 0..40 and to the
    buffer of MAX_STRING_LENGTH = 160 characters (Constants.hpp:66). *)
Definition whitespaces (errorCount : Z) : Z :=
  let n := (errorCount - 1) * 2 in
  let n := if n <? 0 then 0 else n in
  let n := if 40 <? n then 40 else n in
  if 160 <=? n then 159 else n.

Section Throw.
Variable throwError_rec : returnValue -> VisibilityStatus -> mh -> res (returnValue * mh).
Definition throwMessage_b (r : returnValue) (loc : VisibilityStatus) (k : msgKind) (s : mh) : res (returnValue * mh) :=
  _ <- wr (repeat 0 160) (whitespaces (mh_cnt s)) 0 ;;
  keypos <- find_key r ;;
  e <- rd returnValueList keypos ;;
  if rv_eqb (fst e) TERMINAL_LIST_ELEMENT then
    '(_, s) <- throwError_rec RET_EWI_UNDEFINED VS_VISIBLE s ;; Ok (r, s)
  else if visible (snd e) && visible loc then
    let s := if mh_cnt s <? 0 then set_mh_cnt 0 s else s in
    let s := logm k r s in
    match k with
    | KError => Ok (r, set_mh_cnt (mh_cnt s + 1) s)
    | _ => Ok (r, set_mh_cnt 0 s)
    end
  else Ok (r, s).
End Throw.

Fixpoint throwError_n (fuel : nat) (r : returnValue) (loc : VisibilityStatus) (s : mh) : res (returnValue * mh) :=
  match fuel with
  | O => Hang
  | S f =>
    if rv_code r <=? rv_code SUCCESSFUL_RETURN then throwError_n f RET_ERROR_UNDEFINED VS_VISIBLE s
    else if visible (mh_err s) then throwMessage_b (throwError_n f) r loc KError s
    else Ok (r, s)
  end.
Definition throwError := throwError_n 10.
Definition throwMessage := throwMessage_b throwError.

(** MessageHandling.cpp:365-383 *)
Definition throwWarning (r : returnValue) (loc : VisibilityStatus) (s : mh) : res (returnValue * mh) :=
  if rv_code r <=? rv_code SUCCESSFUL_RETURN then throwError RET_WARNING_UNDEFINED VS_VISIBLE s
  else if visible (mh_warn s) then throwMessage r loc KWarning s
  else Ok (r, s).

(** MessageHandling.cpp:389-407 *)
Definition throwInfo (r : returnValue) (loc : VisibilityStatus) (s : mh) : res (returnValue * mh) :=
  if rv_code r <? rv_code SUCCESSFUL_RETURN then throwError RET_INFO_UNDEFINED VS_VISIBLE s
  else if visible (mh_info s) then throwMessage r loc KInfo s
  else Ok (r, s).

(** MessageHandling.hpp:456-462 *)
Definition THROWERROR r := throwError r VS_VISIBLE.
Definition THROWWARNING r := throwWarning r VS_VISIBLE.
Definition THROWINFO r := throwInfo r VS_VISIBLE.

(** MessageHandling.ipp:118-127 *)
Definition setErrorCount (c : Z) (s : mh) : returnValue * mh :=
  if -1 <=? c then (SUCCESSFUL_RETURN, set_mh_cnt c s) else (RET_INVALID_ARGUMENTS, s).

(** MessageHandling.cpp:413-425 *)
Definition mh_reset (s : mh) : returnValue * mh :=
  (SUCCESSFUL_RETURN, snd (setErrorCount 0 (set_mh_info VS_HIDDEN (set_mh_warn VS_HIDDEN (set_mh_err VS_VISIBLE s))))).

(** Utils.cpp:912-957.  The cast (returnValue)retValNumber is undefined unless
    the number is an enumerator. *)
Definition getSimpleStatus (r : returnValue) (doPrintStatus : bool) (s : mh) : res (Z * mh) :=
  let simpleStatus :=
    match r with
    | SUCCESSFUL_RETURN => 0
    | RET_MAX_NWSR_REACHED => 1
    | RET_INIT_FAILED_INFEASIBILITY | RET_HOTSTART_STOPPED_INFEASIBILITY => -2
    | RET_INIT_FAILED_UNBOUNDEDNESS | RET_HOTSTART_STOPPED_UNBOUNDEDNESS => -3
    | _ => -1
    end in
  if doPrintStatus then
    let vsInfo := mh_info s in
    let s := set_mh_info VS_VISIBLE s in
    let s := snd (setErrorCount (-1) s) in
    match rv_of_code (rv_code RET_SIMPLE_STATUS_P0 - simpleStatus) with
    | None => UB
    | Some rn => '(_, s) <- THROWINFO rn s ;; Ok (simpleStatus, set_mh_info vsInfo s)
    end
  else Ok (simpleStatus, s).
