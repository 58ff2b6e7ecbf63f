(** Model of class QProblemB (src/QProblemB.cpp, include/qpOASES/QProblemB.ipp).

    Simplifications:
    - Output (printIteration, messages, tabularOutput) is not modelled;
      THROWERROR(x) etc. is the value x (MessageHandling.cpp, see Messages.v).
    - CPU time.  The member [q_clk] counts the comparisons with the time limit
      and the oracle [cpu] says for each of them whether the limit is exceeded;
      the times reported to the caller are not modelled.
    - The member [q_wsc] does not exist in the code: it counts the successful
      working set changes of solveQP, and nothing depends on it.
    - Arrays allocated with [new] have the stated length and arbitrary contents
      [junk k].
    - The caller's pointers xOpt, yOpt, guessedBounds, _R are not the members
      x, y, bounds, R (which are protected).
    - A NULL pointer is [None]; using it is undefined behaviour. *)
From Verif Require Import Base Types Num Indexlist SubjectTo Options Flipper Utils Matrices LinAlg.

(** SymmetricMatrix is implemented by SymDenseMat and SymSparseMat
    (include/qpOASES/Matrices.hpp). *)
Inductive symmat (N : Num) := SDense (A : denseM N) | SSparse (A : sparseM N).
Arguments SDense {N}. Arguments SSparse {N}.

(** QProblemB.hpp:960-1020 *)
Record qpb (N : Num) := mkQ {
  q_H : option (symmat N);   (* SymmetricMatrix *H *)
  q_freeH : bool;   (* freeHessian *)
  q_g : list N;
  q_lb : list N;
  q_ub : list N;
  q_bounds : subjectTo;
  q_R : list N;
  q_haveChol : bool;   (* haveCholesky *)
  q_x : list N;
  q_y : list N;
  q_tau : car N;
  q_status : QProblemStatus;
  q_infeasible : bool;
  q_unbounded : bool;
  q_htype : HessianType;   (* hessianType *)
  q_regVal : car N;
  q_count : Z;
  q_tmp : list N;   (* delta_xFR_TMP *)
  q_ramp0 : car N;
  q_ramp1 : car N;
  q_rampOffset : Z;
  q_opts : options N;   (* options *)
  q_flip : flipper N;   (* flipper *)
  q_clk : Z;   (* clock readings so far (see above) *)
  q_wsc : Z   (* ghost: successful working set changes so far *)
}.
Arguments mkQ {N}.
Arguments q_H {N} _.
Arguments q_freeH {N} _.
Arguments q_g {N} _.
Arguments q_lb {N} _.
Arguments q_ub {N} _.
Arguments q_bounds {N} _.
Arguments q_R {N} _.
Arguments q_haveChol {N} _.
Arguments q_x {N} _.
Arguments q_y {N} _.
Arguments q_tau {N} _.
Arguments q_status {N} _.
Arguments q_infeasible {N} _.
Arguments q_unbounded {N} _.
Arguments q_htype {N} _.
Arguments q_regVal {N} _.
Arguments q_count {N} _.
Arguments q_tmp {N} _.
Arguments q_ramp0 {N} _.
Arguments q_ramp1 {N} _.
Arguments q_rampOffset {N} _.
Arguments q_opts {N} _.
Arguments q_flip {N} _.
Arguments q_clk {N} _.
Arguments q_wsc {N} _.
Definition set_q_H {N : Num} (v : option (symmat N)) (s : qpb N) : qpb N :=
  mkQ v (q_freeH s) (q_g s) (q_lb s) (q_ub s) (q_bounds s) (q_R s) (q_haveChol s) (q_x s) (q_y s) (q_tau s) (q_status s) (q_infeasible s) (q_unbounded s) (q_htype s) (q_regVal s) (q_count s) (q_tmp s) (q_ramp0 s) (q_ramp1 s) (q_rampOffset s) (q_opts s) (q_flip s) (q_clk s) (q_wsc s).
Definition set_q_freeH {N : Num} (v : bool) (s : qpb N) : qpb N :=
  mkQ (q_H s) v (q_g s) (q_lb s) (q_ub s) (q_bounds s) (q_R s) (q_haveChol s) (q_x s) (q_y s) (q_tau s) (q_status s) (q_infeasible s) (q_unbounded s) (q_htype s) (q_regVal s) (q_count s) (q_tmp s) (q_ramp0 s) (q_ramp1 s) (q_rampOffset s) (q_opts s) (q_flip s) (q_clk s) (q_wsc s).
Definition set_q_g {N : Num} (v : list N) (s : qpb N) : qpb N :=
  mkQ (q_H s) (q_freeH s) v (q_lb s) (q_ub s) (q_bounds s) (q_R s) (q_haveChol s) (q_x s) (q_y s) (q_tau s) (q_status s) (q_infeasible s) (q_unbounded s) (q_htype s) (q_regVal s) (q_count s) (q_tmp s) (q_ramp0 s) (q_ramp1 s) (q_rampOffset s) (q_opts s) (q_flip s) (q_clk s) (q_wsc s).
Definition set_q_lb {N : Num} (v : list N) (s : qpb N) : qpb N :=
  mkQ (q_H s) (q_freeH s) (q_g s) v (q_ub s) (q_bounds s) (q_R s) (q_haveChol s) (q_x s) (q_y s) (q_tau s) (q_status s) (q_infeasible s) (q_unbounded s) (q_htype s) (q_regVal s) (q_count s) (q_tmp s) (q_ramp0 s) (q_ramp1 s) (q_rampOffset s) (q_opts s) (q_flip s) (q_clk s) (q_wsc s).
Definition set_q_ub {N : Num} (v : list N) (s : qpb N) : qpb N :=
  mkQ (q_H s) (q_freeH s) (q_g s) (q_lb s) v (q_bounds s) (q_R s) (q_haveChol s) (q_x s) (q_y s) (q_tau s) (q_status s) (q_infeasible s) (q_unbounded s) (q_htype s) (q_regVal s) (q_count s) (q_tmp s) (q_ramp0 s) (q_ramp1 s) (q_rampOffset s) (q_opts s) (q_flip s) (q_clk s) (q_wsc s).
Definition set_q_bounds {N : Num} (v : subjectTo) (s : qpb N) : qpb N :=
  mkQ (q_H s) (q_freeH s) (q_g s) (q_lb s) (q_ub s) v (q_R s) (q_haveChol s) (q_x s) (q_y s) (q_tau s) (q_status s) (q_infeasible s) (q_unbounded s) (q_htype s) (q_regVal s) (q_count s) (q_tmp s) (q_ramp0 s) (q_ramp1 s) (q_rampOffset s) (q_opts s) (q_flip s) (q_clk s) (q_wsc s).
Definition set_q_R {N : Num} (v : list N) (s : qpb N) : qpb N :=
  mkQ (q_H s) (q_freeH s) (q_g s) (q_lb s) (q_ub s) (q_bounds s) v (q_haveChol s) (q_x s) (q_y s) (q_tau s) (q_status s) (q_infeasible s) (q_unbounded s) (q_htype s) (q_regVal s) (q_count s) (q_tmp s) (q_ramp0 s) (q_ramp1 s) (q_rampOffset s) (q_opts s) (q_flip s) (q_clk s) (q_wsc s).
Definition set_q_haveChol {N : Num} (v : bool) (s : qpb N) : qpb N :=
  mkQ (q_H s) (q_freeH s) (q_g s) (q_lb s) (q_ub s) (q_bounds s) (q_R s) v (q_x s) (q_y s) (q_tau s) (q_status s) (q_infeasible s) (q_unbounded s) (q_htype s) (q_regVal s) (q_count s) (q_tmp s) (q_ramp0 s) (q_ramp1 s) (q_rampOffset s) (q_opts s) (q_flip s) (q_clk s) (q_wsc s).
Definition set_q_x {N : Num} (v : list N) (s : qpb N) : qpb N :=
  mkQ (q_H s) (q_freeH s) (q_g s) (q_lb s) (q_ub s) (q_bounds s) (q_R s) (q_haveChol s) v (q_y s) (q_tau s) (q_status s) (q_infeasible s) (q_unbounded s) (q_htype s) (q_regVal s) (q_count s) (q_tmp s) (q_ramp0 s) (q_ramp1 s) (q_rampOffset s) (q_opts s) (q_flip s) (q_clk s) (q_wsc s).
Definition set_q_y {N : Num} (v : list N) (s : qpb N) : qpb N :=
  mkQ (q_H s) (q_freeH s) (q_g s) (q_lb s) (q_ub s) (q_bounds s) (q_R s) (q_haveChol s) (q_x s) v (q_tau s) (q_status s) (q_infeasible s) (q_unbounded s) (q_htype s) (q_regVal s) (q_count s) (q_tmp s) (q_ramp0 s) (q_ramp1 s) (q_rampOffset s) (q_opts s) (q_flip s) (q_clk s) (q_wsc s).
Definition set_q_tau {N : Num} (v : car N) (s : qpb N) : qpb N :=
  mkQ (q_H s) (q_freeH s) (q_g s) (q_lb s) (q_ub s) (q_bounds s) (q_R s) (q_haveChol s) (q_x s) (q_y s) v (q_status s) (q_infeasible s) (q_unbounded s) (q_htype s) (q_regVal s) (q_count s) (q_tmp s) (q_ramp0 s) (q_ramp1 s) (q_rampOffset s) (q_opts s) (q_flip s) (q_clk s) (q_wsc s).
Definition set_q_status {N : Num} (v : QProblemStatus) (s : qpb N) : qpb N :=
  mkQ (q_H s) (q_freeH s) (q_g s) (q_lb s) (q_ub s) (q_bounds s) (q_R s) (q_haveChol s) (q_x s) (q_y s) (q_tau s) v (q_infeasible s) (q_unbounded s) (q_htype s) (q_regVal s) (q_count s) (q_tmp s) (q_ramp0 s) (q_ramp1 s) (q_rampOffset s) (q_opts s) (q_flip s) (q_clk s) (q_wsc s).
Definition set_q_infeasible {N : Num} (v : bool) (s : qpb N) : qpb N :=
  mkQ (q_H s) (q_freeH s) (q_g s) (q_lb s) (q_ub s) (q_bounds s) (q_R s) (q_haveChol s) (q_x s) (q_y s) (q_tau s) (q_status s) v (q_unbounded s) (q_htype s) (q_regVal s) (q_count s) (q_tmp s) (q_ramp0 s) (q_ramp1 s) (q_rampOffset s) (q_opts s) (q_flip s) (q_clk s) (q_wsc s).
Definition set_q_unbounded {N : Num} (v : bool) (s : qpb N) : qpb N :=
  mkQ (q_H s) (q_freeH s) (q_g s) (q_lb s) (q_ub s) (q_bounds s) (q_R s) (q_haveChol s) (q_x s) (q_y s) (q_tau s) (q_status s) (q_infeasible s) v (q_htype s) (q_regVal s) (q_count s) (q_tmp s) (q_ramp0 s) (q_ramp1 s) (q_rampOffset s) (q_opts s) (q_flip s) (q_clk s) (q_wsc s).
Definition set_q_htype {N : Num} (v : HessianType) (s : qpb N) : qpb N :=
  mkQ (q_H s) (q_freeH s) (q_g s) (q_lb s) (q_ub s) (q_bounds s) (q_R s) (q_haveChol s) (q_x s) (q_y s) (q_tau s) (q_status s) (q_infeasible s) (q_unbounded s) v (q_regVal s) (q_count s) (q_tmp s) (q_ramp0 s) (q_ramp1 s) (q_rampOffset s) (q_opts s) (q_flip s) (q_clk s) (q_wsc s).
Definition set_q_regVal {N : Num} (v : car N) (s : qpb N) : qpb N :=
  mkQ (q_H s) (q_freeH s) (q_g s) (q_lb s) (q_ub s) (q_bounds s) (q_R s) (q_haveChol s) (q_x s) (q_y s) (q_tau s) (q_status s) (q_infeasible s) (q_unbounded s) (q_htype s) v (q_count s) (q_tmp s) (q_ramp0 s) (q_ramp1 s) (q_rampOffset s) (q_opts s) (q_flip s) (q_clk s) (q_wsc s).
Definition set_q_count {N : Num} (v : Z) (s : qpb N) : qpb N :=
  mkQ (q_H s) (q_freeH s) (q_g s) (q_lb s) (q_ub s) (q_bounds s) (q_R s) (q_haveChol s) (q_x s) (q_y s) (q_tau s) (q_status s) (q_infeasible s) (q_unbounded s) (q_htype s) (q_regVal s) v (q_tmp s) (q_ramp0 s) (q_ramp1 s) (q_rampOffset s) (q_opts s) (q_flip s) (q_clk s) (q_wsc s).
Definition set_q_tmp {N : Num} (v : list N) (s : qpb N) : qpb N :=
  mkQ (q_H s) (q_freeH s) (q_g s) (q_lb s) (q_ub s) (q_bounds s) (q_R s) (q_haveChol s) (q_x s) (q_y s) (q_tau s) (q_status s) (q_infeasible s) (q_unbounded s) (q_htype s) (q_regVal s) (q_count s) v (q_ramp0 s) (q_ramp1 s) (q_rampOffset s) (q_opts s) (q_flip s) (q_clk s) (q_wsc s).
Definition set_q_ramp0 {N : Num} (v : car N) (s : qpb N) : qpb N :=
  mkQ (q_H s) (q_freeH s) (q_g s) (q_lb s) (q_ub s) (q_bounds s) (q_R s) (q_haveChol s) (q_x s) (q_y s) (q_tau s) (q_status s) (q_infeasible s) (q_unbounded s) (q_htype s) (q_regVal s) (q_count s) (q_tmp s) v (q_ramp1 s) (q_rampOffset s) (q_opts s) (q_flip s) (q_clk s) (q_wsc s).
Definition set_q_ramp1 {N : Num} (v : car N) (s : qpb N) : qpb N :=
  mkQ (q_H s) (q_freeH s) (q_g s) (q_lb s) (q_ub s) (q_bounds s) (q_R s) (q_haveChol s) (q_x s) (q_y s) (q_tau s) (q_status s) (q_infeasible s) (q_unbounded s) (q_htype s) (q_regVal s) (q_count s) (q_tmp s) (q_ramp0 s) v (q_rampOffset s) (q_opts s) (q_flip s) (q_clk s) (q_wsc s).
Definition set_q_rampOffset {N : Num} (v : Z) (s : qpb N) : qpb N :=
  mkQ (q_H s) (q_freeH s) (q_g s) (q_lb s) (q_ub s) (q_bounds s) (q_R s) (q_haveChol s) (q_x s) (q_y s) (q_tau s) (q_status s) (q_infeasible s) (q_unbounded s) (q_htype s) (q_regVal s) (q_count s) (q_tmp s) (q_ramp0 s) (q_ramp1 s) v (q_opts s) (q_flip s) (q_clk s) (q_wsc s).
Definition set_q_opts {N : Num} (v : options N) (s : qpb N) : qpb N :=
  mkQ (q_H s) (q_freeH s) (q_g s) (q_lb s) (q_ub s) (q_bounds s) (q_R s) (q_haveChol s) (q_x s) (q_y s) (q_tau s) (q_status s) (q_infeasible s) (q_unbounded s) (q_htype s) (q_regVal s) (q_count s) (q_tmp s) (q_ramp0 s) (q_ramp1 s) (q_rampOffset s) v (q_flip s) (q_clk s) (q_wsc s).
Definition set_q_flip {N : Num} (v : flipper N) (s : qpb N) : qpb N :=
  mkQ (q_H s) (q_freeH s) (q_g s) (q_lb s) (q_ub s) (q_bounds s) (q_R s) (q_haveChol s) (q_x s) (q_y s) (q_tau s) (q_status s) (q_infeasible s) (q_unbounded s) (q_htype s) (q_regVal s) (q_count s) (q_tmp s) (q_ramp0 s) (q_ramp1 s) (q_rampOffset s) (q_opts s) v (q_clk s) (q_wsc s).
Definition set_q_clk {N : Num} (v : Z) (s : qpb N) : qpb N :=
  mkQ (q_H s) (q_freeH s) (q_g s) (q_lb s) (q_ub s) (q_bounds s) (q_R s) (q_haveChol s) (q_x s) (q_y s) (q_tau s) (q_status s) (q_infeasible s) (q_unbounded s) (q_htype s) (q_regVal s) (q_count s) (q_tmp s) (q_ramp0 s) (q_ramp1 s) (q_rampOffset s) (q_opts s) (q_flip s) v (q_wsc s).
Definition set_q_wsc {N : Num} (v : Z) (s : qpb N) : qpb N :=
  mkQ (q_H s) (q_freeH s) (q_g s) (q_lb s) (q_ub s) (q_bounds s) (q_R s) (q_haveChol s) (q_x s) (q_y s) (q_tau s) (q_status s) (q_infeasible s) (q_unbounded s) (q_htype s) (q_regVal s) (q_count s) (q_tmp s) (q_ramp0 s) (q_ramp1 s) (q_rampOffset s) (q_opts s) (q_flip s) (q_clk s) v.

(** Local arrays of solveQP (QProblemB.cpp:2433-2439), allocated once per call. *)
Record deltas (N : Num) := mkD {
  dl_g : list N; dl_lb : list N; dl_ub : list N;
  dl_xFX : list N; dl_xFR : list N; dl_yFX : list N }.
Arguments mkD {N}. Arguments dl_g {N}. Arguments dl_lb {N}. Arguments dl_ub {N}.
Arguments dl_xFX {N}. Arguments dl_xFR {N}. Arguments dl_yFX {N}.

(** The Hessian argument of init: a SymmetricMatrix or a dense array. *)
Inductive harg (N : Num) := HMat (M : option (symmat N)) | HArr (a : option (list N)).
Arguments HMat {N}. Arguments HArr {N}.

Definition is_hst (a b : HessianType) : bool := if hst_eq_dec a b then true else false.
Definition is_sts (a b : SubjectToStatus) : bool := if sts_eq_dec a b then true else false.
Definition is_stt (a b : SubjectToType) : bool := if stt_eq_dec a b then true else false.
Definition is_qps (a b : QProblemStatus) : bool := if qps_eq_dec a b then true else false.

Section QProblemB.
Context {N : Num}.
Notation arr := (list N).
Notation qpb := (qpb N).
(** contents of fresh memory and outcomes of the comparisons with the CPU time limit *)
Variable junk : Z -> arr.
Variable cpu : Z -> bool.

(** virtual functions of SymmetricMatrix *)
Definition m_isDiag (M : symmat N) : res bool := match M with SDense A => d_isDiag A | SSparse A => s_isDiag A end.
Definition m_diag (M : symmat N) (i : Z) : res N := match M with SDense A => d_diag A i | SSparse A => s_diag A i end.
Definition m_getNorm (M : symmat N) (t : Z) : res N := match M with SDense A => d_getNorm A t | SSparse A => s_getNorm A t end.
Definition m_getRow (M : symmat N) r ic alpha (row : arr) : res arr :=
  match M with SDense A => d_getRow A r ic alpha row | SSparse A => s_getRow A r ic alpha row end.
Definition m_getCol (M : symmat N) c ir alpha (col : arr) : res arr :=
  match M with SDense A => d_getCol A c ir alpha col | SSparse A => s_getCol A c ir alpha col end.
Definition m_times (M : symmat N) xN alpha (x : arr) xLD beta (y : arr) yLD : res arr :=
  match M with SDense A => d_times A xN alpha x xLD beta y yLD | SSparse A => s_times A xN alpha x xLD beta y yLD end.
(** yCompr has the default value BT_TRUE (Matrices.hpp:143) in all calls *)
Definition m_times_idx (M : symmat N) ir ic xN alpha (x : arr) xLD beta (y : arr) yLD : res arr :=
  match M with
  | SDense A => d_times_idx A ir (Some ic) xN alpha x xLD beta y yLD true
  | SSparse A => s_times_idx A ir (Some ic) xN alpha x xLD beta y yLD true
  end.
Definition m_addToDiag (M : symmat N) (alpha : N) : res (returnValue * symmat N) :=
  match M with
  | SDense A => '(r, A) <- d_addToDiag A alpha ;; Ok (r, SDense A)
  | SSparse A => '(r, A) <- s_addToDiag A alpha ;; Ok (r, SSparse A)
  end.
(** dereferencing H *)
Definition q_theH (s : qpb) : res (symmat N) := match q_H s with Some M => Ok M | None => UB end.

(** a function applied to the array starting at a+off *)
Definition at_off (a : arr) (off : Z) (f : arr -> res arr) : res arr :=
  if (off <? 0) || (zlen a <? off) then UB else
  b <- f (skipn (Z.to_nat off) a) ;; Ok (firstn (Z.to_nat off) a ++ b).

(** QProblemB.ipp:64-94 *)
Definition nV (s : qpb) : Z := st_n (q_bounds s).
Definition nFR (s : qpb) : Z := st_nIna (q_bounds s).
Definition nFX (s : qpb) : Z := st_nAct (q_bounds s).
Definition nFV (s : qpb) : res Z := st_getNumberOfType (q_bounds s) ST_EQUALITY.
Definition FR_idx (s : qpb) : list Z := il_number (st_ina (q_bounds s)).
Definition FX_idx (s : qpb) : list Z := il_number (st_act (q_bounds s)).
(** QProblemB.ipp:109-127, 170-176 *)
Definition isInitialised (s : qpb) : bool := negb (is_qps (q_status s) QPS_NOTINITIALISED).
Definition isSolved (s : qpb) : bool := is_qps (q_status s) QPS_SOLVED.
Definition usingReg (s : qpb) : bool := q_regVal s >' nZERO.

Definition zeros (n : Z) : arr := repeat n0 (Z.to_nat n).

(** Options of a new object (Options.cpp:40-43): setToDefault assigns every
    member, so the values it starts from do not matter. *)
Definition optDefault : options N :=
  setToDefault (mkOpt PL_NONE false false false false false false 0 0 false
    n0 n0 n0 n0 n0 n0 n0 n0 n0 n0 n0 ST_UNDEFINED n0 0 n0 0 n0 n0 n0 n0 false false 0 0 0).

(** QProblemB.cpp:98-165 with options [o] (the constructor itself uses [optDefault]) *)
Definition qb_new (_nV : Z) (h : HessianType) (o : options N) : qpb :=
  let n := if _nV <=? 0 then 1 else _nV in
  mkQ None false (zeros n) (zeros n) (zeros n) (st_new n) (zeros (n * n)) false (zeros n) (zeros n)
      n0 QPS_NOTINITIALISED false false h n0 0 (junk n) (o_initialRamping o) (o_finalRamping o) 0 o (fl_new n 0) 0 0.

(** QProblemB.cpp:210-247 *)
Definition qb_reset (s : qpb) : res (returnValue * qpb) :=
  if nV s =? 0 then Ok (RET_QPOBJECT_NOT_SETUP, s) else
  let n := nV s in
  R <- for_up 0 (n * n) (fun i R => wr R i n0) (q_R s) ;;
  Ok (SUCCESSFUL_RETURN,
      mkQ (q_H s) (q_freeH s) (q_g s) (q_lb s) (q_ub s) (snd (st_init (q_bounds s) n)) R false (q_x s) (q_y s)
          n0 QPS_NOTINITIALISED false false HST_UNKNOWN n0 (q_count s) (q_tmp s)
          (o_initialRamping (q_opts s)) (o_finalRamping (q_opts s)) 0 (q_opts s) (fl_init (q_flip s) n 0) (q_clk s) (q_wsc s)).

(** QProblemB.ipp:191-200 *)
Definition qb_setOptions (o : options N) (s : qpb) : qpb := set_q_opts (snd (ensureConsistency o)) s.

(** QProblemB.ipp:160-164 *)
Definition qb_setHessianType (h : HessianType) (s : qpb) : qpb := set_q_htype h s.

(** QProblemB.ipp:239-287 *)
Definition qb_setH (h : harg N) (s : qpb) : qpb :=
  match h with
  | HMat M => set_q_H M (set_q_freeH false s)
  | HArr None =>
      if is_hst (q_htype s) HST_IDENTITY then s
      else set_q_htype HST_ZERO (set_q_H None (set_q_freeH false s))
  | HArr (Some a) => set_q_H (Some (SDense (mkDense (nV s) (nV s) (nV s) a))) (set_q_freeH true s)
  end.

(** QProblemB.ipp:293-380: memcpy, or fill with -INFTY / INFTY *)
Definition setVec (dst : arr) (src : option arr) (n : Z) (dflt : N) : res arr :=
  match src with
  | Some a => memcpy dst a n
  | None => for_up 0 n (fun i a => wr a i dflt) dst
  end.

(** QProblemB.cpp:1757-1799.  nV is positive here, so setG and setLB do not fail. *)
Definition setupQPdata (h : harg N) (g lb ub : option arr) (s : qpb) : res (returnValue * qpb) :=
  let s := qb_setH h s in
  match g with
  | None => Ok (RET_INVALID_ARGUMENTS, s)
  | Some _ =>
      g' <- setVec (q_g s) g (nV s) n0 ;;
      lb' <- setVec (q_lb s) lb (nV s) (-' nINFTY) ;;
      ub' <- setVec (q_ub s) ub (nV s) nINFTY ;;
      Ok (SUCCESSFUL_RETURN, set_q_ub ub' (set_q_lb lb' (set_q_g g' s)))
  end.

(** QProblemB.cpp:1187-1191 and its two repetitions *)
Definition ensure_regularisation (s : qpb) : qpb :=
  if o_enableRegularisation (q_opts s) then s
  else set_q_opts (set_o_numRegularisationSteps 1 (set_o_enableRegularisation true (q_opts s))) s.

(** QProblemB.cpp:1176-1275 *)
Definition determineHessianType (s : qpb) : res (returnValue * qpb) :=
  let rest :=
    match q_H s with
    | None => Ok (SUCCESSFUL_RETURN, ensure_regularisation (set_q_htype HST_ZERO s))
    | Some M =>
        let s := set_q_htype HST_POSDEF s in
        d <- m_isDiag M ;;
        if negb d then Ok (SUCCESSFUL_RETURN, s) else
        c <- forb_up 0 (nV s) (fun i '(isId, isZ) =>
               curDiag <- m_diag M i ;;
               if curDiag >=' nINFTY then Ok (Brk (RET_DIAGONAL_NOT_INITIALISED, s)) else
               if curDiag <' -' nZERO then
                 let s := set_q_htype HST_INDEF s in
                 Ok (Brk (if o_enableFlippingBounds (q_opts s) then SUCCESSFUL_RETURN else RET_HESSIAN_INDEFINITE, s))
               else
                 Ok (Next (if nabs (curDiag -' n1) >' nEPS then false else isId,
                           if nabs curDiag >' nEPS then false else isZ))) (true, true) ;;
        match c with
        | Brk e => Ok e
        | Next (isId, isZ) =>
            let s := if isId : bool then set_q_htype HST_IDENTITY s else s in
            let s := if isZ : bool then ensure_regularisation (set_q_htype HST_ZERO s) else s in
            Ok (SUCCESSFUL_RETURN, s)
        end
    end in
  match q_htype s with
  | HST_ZERO => Ok (SUCCESSFUL_RETURN, ensure_regularisation s)
  | HST_IDENTITY => Ok (SUCCESSFUL_RETURN, s)
  | HST_UNKNOWN => rest
  | _ => match q_H s with Some _ => Ok (SUCCESSFUL_RETURN, s) | None => rest end
  end.

(** QProblemB.cpp:1298-1322: is some entry of the new bound finite? *)
Definition someFinite (v : option arr) (n : Z) (fin : N -> bool) : res bool :=
  match v with
  | None => Ok false
  | Some a => c <- forb_up 0 n (fun i _ => x <- rd a i ;; if fin x then Ok (Brk tt) else Ok (Next tt)) tt ;;
              Ok (match c with Brk _ => true | Next _ => false end)
  end.

(** bounds.setType( i,t ), return value ignored *)
Definition b_setType (b : subjectTo) (i : Z) (t : SubjectToType) : res subjectTo :=
  '(_, b) <- st_setType b i t ;; Ok b.

(** QProblemB.cpp:1290-1360; always successful *)
Definition setupSubjectToType (lbn ubn : option arr) (s : qpb) : res qpb :=
  lo <- someFinite lbn (nV s) (fun v => v >' -' nINFTY) ;;
  up <- someFinite ubn (nV s) (fun v => v <' nINFTY) ;;
  let b := st_setNoUpper (st_setNoLower (q_bounds s) (negb lo)) (negb up) in
  let o := q_opts s in
  b <- match lbn, ubn with
       | Some ln, Some un =>
           for_up 0 (nV s) (fun i b =>
             l <- rd ln i ;; u <- rd un i ;;
             if (l <' -' nINFTY +' o_boundTolerance o) && (u >' nINFTY -' o_boundTolerance o)
                && negb (o_enableFarBounds o) then b_setType b i ST_UNBOUNDED
             else
               lc <- rd (q_lb s) i ;; uc <- rd (q_ub s) i ;;
               if o_enableEqualities o && (lc >' uc -' o_boundTolerance o) && (l >' u -' o_boundTolerance o)
               then b_setType b i ST_EQUALITY else b_setType b i ST_BOUNDED) b
       | None, None => for_up 0 (nV s) (fun i b => b_setType b i ST_UNBOUNDED) b
       | _, _ => for_up 0 (nV s) (fun i b => b_setType b i ST_BOUNDED) b
       end ;;
  Ok (set_q_bounds b s).

(** QProblemB.cpp:1999-2031 *)
Definition regulariseHessian (s : qpb) : res (returnValue * qpb) :=
  if negb (o_enableRegularisation (q_opts s)) then Ok (SUCCESSFUL_RETURN, s) else
  if is_hst (q_htype s) HST_IDENTITY then Ok (RET_CANNOT_REGULARISE_IDENTITY, s) else
  if usingReg s then Ok (SUCCESSFUL_RETURN, s) else
  if is_hst (q_htype s) HST_ZERO then
    v <- getNorm (q_g s) 0 (nV s) 2 ;;
    Ok (SUCCESSFUL_RETURN, set_q_regVal (v *' o_epsRegularisation (q_opts s)) s)
  else
    M <- q_theH s ;;
    v <- m_getNorm M 2 ;;
    let s := set_q_regVal (v *' o_epsRegularisation (q_opts s)) s in
    '(r, M) <- m_addToDiag M (q_regVal s) ;;
    let s := set_q_H (Some M) s in
    Ok (if r =r? RET_NO_DIAGONAL_AVAILABLE then RET_CANNOT_REGULARISE_SPARSE else SUCCESSFUL_RETURN, s).

(** QProblemB.cpp:1366-1441; RR(i,j) is R[i+nV*j] (QProblemB.hpp / Types.hpp) *)
Definition computeCholesky (s : qpb) : res (returnValue * qpb) :=
  let n := nV s in
  R <- for_up 0 (n * n) (fun i R => wr R i n0) (q_R s) ;;
  match q_htype s with
  | HST_ZERO =>
      if usingReg s then
        R <- for_up 0 n (fun i R => wr R (i + n * i) (nsqrt (q_regVal s))) R ;;
        Ok (SUCCESSFUL_RETURN, set_q_R R s)
      else Ok (RET_CHOLESKY_OF_ZERO_HESSIAN, set_q_R R s)
  | HST_IDENTITY =>
      R <- for_up 0 n (fun i R => wr R (i + n * i) n1) R ;;
      Ok (SUCCESSFUL_RETURN, set_q_R R s)
  | _ =>
      if nFR s <=? 0 then Ok (SUCCESSFUL_RETURN, set_q_R R s) else
      M <- q_theH s ;;
      R <- for_up 0 (nFR s) (fun j R =>
             c <- rd (FR_idx s) j ;; at_off R (j * n) (m_getCol M c (st_ina (q_bounds s)) n1)) R ;;
      '(info, R) <- dpotrf (nFR s) R n ;;
      if 0 <? info then
        r0 <- rd R 0 ;;
        let o := q_opts s in
        let o := if r0 <' n0 then
                   set_o_epsRegularisation
                     (getMin (-' r0 +' o_epsRegularisation o) (nsqrt (nabs (o_epsRegularisation o)))) o
                 else o in
        Ok (RET_HESSIAN_NOT_SPD, set_q_htype HST_SEMIDEF (set_q_opts o (set_q_R R s)))
      else
        R <- for_up 0 (nFR s - 1) (fun i R => wr R (i + 1 + n * i) n0) R ;;
        Ok (SUCCESSFUL_RETURN, set_q_R R s)
  end.

(** QProblemB.cpp:1447-1473 *)
Definition setupInitialCholesky (s : qpb) : res (returnValue * qpb) :=
  fv <- nFV s ;;
  '(r, s) <- (if negb (nV s =? nFR s - fv) && o_enableRegularisation (q_opts s)
              then regulariseHessian s else Ok (SUCCESSFUL_RETURN, s)) ;;
  if negb (r =r? SUCCESSFUL_RETURN) then Ok (RET_INIT_FAILED_REGULARISATION, s) else
  '(rc, s) <- computeCholesky s ;;
  let finish (rc : returnValue) (s : qpb) : res (returnValue * qpb) :=
    if negb (rc =r? SUCCESSFUL_RETURN) then Ok (RET_INIT_FAILED_CHOLESKY, s)
    else Ok (SUCCESSFUL_RETURN, set_q_haveChol true s) in
  if rc =r? RET_HESSIAN_NOT_SPD then
    '(r, s) <- regulariseHessian s ;;
    if negb (r =r? SUCCESSFUL_RETURN) then Ok (RET_INIT_FAILED_REGULARISATION, s) else
    '(rc, s) <- computeCholesky s ;; finish rc s
  else finish rc s.

(** The status QProblemB.cpp:1479-1617 chooses for bound i
    (__ALWAYS_INITIALISE_WITH_ALL_EQUALITIES__ is defined, Types.hpp:63).  The order of the
    tests, including reading types that are not needed, follows the code. *)
Definition auxStatus (xOpt yOpt : option arr) (guess : option subjectTo) (s : qpb) (i : Z) : res SubjectToStatus :=
  let eqOr (v : res SubjectToStatus) : res SubjectToStatus :=
    t <- st_getType (q_bounds s) i ;; if is_stt t ST_EQUALITY then Ok ST_LOWER else v in
  match guess with
  | Some gb => eqOr (st_getStatus gb i)
  | None =>
      match yOpt with
      | Some y =>
          yi <- rd y i ;;
          if yi >' nEPS then Ok ST_LOWER else
          if yi <' -' nEPS then Ok ST_UPPER else eqOr (Ok ST_INACTIVE)
      | None =>
          match xOpt with
          | Some x =>
              xi <- rd x i ;; l <- rd (q_lb s) i ;;
              if xi <=' l +' o_boundTolerance (q_opts s) then Ok ST_LOWER else
              u <- rd (q_ub s) i ;;
              if xi >=' u -' o_boundTolerance (q_opts s) then Ok ST_UPPER else eqOr (Ok ST_INACTIVE)
          | None =>
              t <- st_getType (q_bounds s) i ;;
              Ok (match t with
                  | ST_UNBOUNDED => ST_INACTIVE
                  | ST_EQUALITY => ST_LOWER
                  | _ => o_initialStatusBounds (q_opts s)
                  end)
          end
      end
  end.

(** QProblemB.cpp:1479-1617 *)
Definition obtainAuxiliaryWorkingSet (xOpt yOpt : option arr) (guess : option subjectTo) (s : qpb) (aux : subjectTo)
  : res (returnValue * subjectTo) :=
  c <- forb_up 0 (nV s) (fun i aux =>
         v <- auxStatus xOpt yOpt guess s i ;;
         '(r, aux) <- st_setup KBounds aux i v ;;
         if r =r? SUCCESSFUL_RETURN then Ok (Next aux) else Ok (Brk aux)) aux ;;
  Ok (match c with Next aux => (SUCCESSFUL_RETURN, aux) | Brk aux => (RET_OBTAINING_WORKINGSET_FAILED, aux) end).

(** QProblemB.cpp:1635-1688 on the members; nR is getNZ() = getNFR() (690-694),
    one less while a bound is being removed *)
Definition qb_backsolveR (s : qpb) (b : option arr) (transposed removing : bool) (a : arr) : res (returnValue * arr) :=
  backsolveR (nV s) (if removing then nFR s - 1 else nFR s) (q_R s) b transposed a.

(** QProblemB.cpp:1694-1750; always successful *)
Definition determineDataShift (gn : arr) (lbn ubn : option arr) (s : qpb) (d : deltas N) : res (deltas N * bool) :=
  let shift (new : option arr) (dflt : N) (cur : arr) (i : Z) : res N :=
    match new with
    | Some a => v <- rd a i ;; c <- rd cur i ;; Ok (v -' c)
    | None => c <- rd cur i ;; Ok (dflt -' c)
    end in
  dg <- for_up 0 (nV s) (fun i a => v <- shift (Some gn) n0 (q_g s) i ;; wr a i v) (dl_g d) ;;
  dlb <- for_up 0 (nV s) (fun i a => v <- shift lbn (-' nINFTY) (q_lb s) i ;; wr a i v) (dl_lb d) ;;
  dub <- for_up 0 (nV s) (fun i a => v <- shift ubn nINFTY (q_ub s) i ;; wr a i v) (dl_ub d) ;;
  c <- forb_up 0 (nFX s) (fun i _ =>
         ii <- rd (FX_idx s) i ;;
         a <- rd dlb ii ;;
         if nabs a >' nEPS then Ok (Brk tt) else
         b <- rd dub ii ;;
         if nabs b >' nEPS then Ok (Brk tt) else Ok (Next tt)) tt ;;
  Ok (mkD dg dlb dub (dl_xFX d) (dl_xFR d) (dl_yFX d), match c with Brk _ => false | Next _ => true end).

(** QProblemB.cpp:1954-1964 *)
Definition areBoundsConsistent (lbn ubn : option arr) (s : qpb) : res returnValue :=
  match lbn, ubn with
  | Some ln, Some un =>
      c <- forb_up 0 (nV s) (fun i _ =>
             l <- rd ln i ;; u <- rd un i ;;
             if l >' u +' nEPS then Ok (Brk tt) else Ok (Next tt)) tt ;;
      Ok (match c with Brk _ => RET_QP_INFEASIBLE | Next _ => SUCCESSFUL_RETURN end)
  | _, _ => Ok SUCCESSFUL_RETURN
  end.

(** QProblemB.ipp:474-488 *)
Definition isBlocking (num den epsNum epsDen t : N) : bool :=
  (den >=' epsDen) && (num >=' epsNum) && (num <' t *' den).

(** QProblemB.cpp:2065-2107; returns t and BC_idx *)
Definition performRatioTest (nIdx : Z) (idx : list Z) (st : subjectTo) (num den : arr) (epsNum epsDen t : N)
  : res (N * Z) :=
  for_up 0 nIdx (fun i '(t, bc) =>
    ii <- rd idx i ;;
    ty <- st_getType st ii ;;
    if is_stt ty ST_EQUALITY then Ok (t, bc) else
    v <- st_getStatus st ii ;;
    match v with
    | ST_LOWER | ST_INACTIVE =>
        nu <- rd num i ;; de <- rd den i ;;
        if isBlocking nu de epsNum epsDen t then Ok (nu /' de, ii) else Ok (t, bc)
    | ST_UPPER =>
        nu <- rd num i ;; de <- rd den i ;;
        if isBlocking (-' nu) (-' de) epsNum epsDen t then Ok (nu /' de, ii) else Ok (t, bc)
    | _ => Ok (t, bc)
    end) (t, -1).

(** one component of QProblemB.cpp:2113-2157 *)
Definition homLen1 (new cur : arr) (n : Z) (len : N) : res N :=
  for_up 0 n (fun i len =>
    v <- rd new i ;; c <- rd cur i ;;
    let sc := nabs v in
    let sc := if sc <' n1 then n1 else sc in
    let d := nabs (v -' c) /' sc in
    Ok (if d >' len then d else len)) len.
(** QProblemB.cpp:2113-2157 *)
Definition getRelativeHomotopyLength (gn : arr) (lbn ubn : option arr) (s : qpb) : res N :=
  len <- homLen1 gn (q_g s) (nV s) n0 ;;
  len <- match lbn with Some a => homLen1 a (q_lb s) (nV s) len | None => Ok len end ;;
  match ubn with Some a => homLen1 a (q_ub s) (nV s) len | None => Ok len end.

(** QProblemB.cpp:2871-2905; always successful *)
Definition setupAuxiliaryQPgradient (s : qpb) : res qpb :=
  g <- match q_htype s with
       | HST_ZERO =>
           if usingReg s then
             for_up 0 (nV s) (fun i g => a <- rd (q_y s) i ;; b <- rd (q_x s) i ;; wr g i (a -' q_regVal s *' b)) (q_g s)
           else for_up 0 (nV s) (fun i g => a <- rd (q_y s) i ;; wr g i a) (q_g s)
       | HST_IDENTITY => for_up 0 (nV s) (fun i g => a <- rd (q_y s) i ;; b <- rd (q_x s) i ;; wr g i (a -' b)) (q_g s)
       | _ =>
           g <- for_up 0 (nV s) (fun i g => a <- rd (q_y s) i ;; wr g i a) (q_g s) ;;
           M <- q_theH s ;; m_times M 1 nm1 (q_x s) (nV s) n1 g (nV s)
       end ;;
  Ok (set_q_g g s).

(** the ramp value of QProblemB.cpp:2179-2180, 2215 *)
Definition rampT (i off n : Z) : N := nlit (Z.rem (i + off) n) 0 /' nlit (n - 1) 0.

(** QProblemB.cpp:2163-2196 *)
Definition performRamping (s : qpb) : res qpb :=
  let n := nV s in
  '(lb, ub, y) <- for_up 0 n (fun i '(lb, ub, y) =>
     ty <- st_getType (q_bounds s) i ;;
     xi <- rd (q_x s) i ;;
     match ty with
     | ST_EQUALITY => lb <- wr lb i xi ;; ub <- wr ub i xi ;; Ok (lb, ub, y)
     | ST_UNBOUNDED => Ok (lb, ub, y)
     | ST_DISABLED => Ok (lb, ub, y)
     | _ =>
         let t := rampT i (q_rampOffset s) n in
         let rv := (n1 -' t) *' q_ramp0 s +' t *' q_ramp1 s in
         v <- st_getStatus (q_bounds s) i ;;
         lb <- (if is_sts v ST_LOWER then Ok lb else wr lb i (xi -' rv)) ;;
         ub <- (if is_sts v ST_UPPER then Ok ub else wr ub i (xi +' rv)) ;;
         '(lb, y) <- (if is_sts v ST_LOWER then lb <- wr lb i xi ;; y <- wr y i rv ;; Ok (lb, y) else Ok (lb, y)) ;;
         '(ub, y) <- (if is_sts v ST_UPPER then ub <- wr ub i xi ;; y <- wr y i (-' rv) ;; Ok (ub, y) else Ok (ub, y)) ;;
         y <- (if is_sts v ST_INACTIVE then wr y i n0 else Ok y) ;;
         Ok (lb, ub, y)
     end) (q_lb s, q_ub s, q_y s) ;;
  s <- setupAuxiliaryQPgradient (set_q_y y (set_q_ub ub (set_q_lb lb s))) ;;
  Ok (set_q_rampOffset (q_rampOffset s + 1) s).

(** QProblemB.cpp:2202-2246 *)
Definition updateFarBounds (far : N) (nRamp : Z) (lbn ubn : option arr) (s : qpb) (lf uf : arr) : res (arr * arr) :=
  for_up 0 (nV s) (fun i '(lf, uf) =>
    let v := if o_enableRamping (q_opts s) then
               let t := rampT i (q_rampOffset s) nRamp in
               far *' (n1 +' (n1 -' t) *' q_ramp0 s +' t *' q_ramp1 s)
             else far in
    l <- match lbn with None => Ok (-' v) | Some a => w <- rd a i ;; Ok (getMax (-' v) w) end ;;
    lf <- wr lf i l ;;
    u <- match ubn with None => Ok v | Some a => w <- rd a i ;; Ok (getMin v w) end ;;
    uf <- wr uf i u ;;
    Ok (lf, uf)) (lf, uf).

(** QProblemB.cpp:2830-2865 *)
Definition setupAuxiliaryQPsolution (xOpt yOpt : option arr) (s : qpb) : res qpb :=
  let copy (src : option arr) (dst : arr) :=
    for_up 0 (nV s) (fun i a => v <- match src with Some o => rd o i | None => Ok n0 end ;; wr a i v) dst in
  x <- copy xOpt (q_x s) ;; y <- copy yOpt (q_y s) ;; Ok (set_q_y y (set_q_x x s)).

(** QProblemB.cpp:2911-2974 *)
Definition setupAuxiliaryQPbounds (relax : bool) (s : qpb) : res (returnValue * qpb) :=
  let rlx := o_boundRelaxation (q_opts s) in
  c <- forb_up 0 (nV s) (fun i '(lb, ub) =>
     v <- st_getStatus (q_bounds s) i ;;
     ty <- st_getType (q_bounds s) i ;;
     let eq := is_stt ty ST_EQUALITY in
     xi <- rd (q_x s) i ;;
     match v with
     | ST_INACTIVE =>
         if relax then
           lb <- wr lb i (if eq then xi else xi -' rlx) ;;
           ub <- wr ub i (if eq then xi else xi +' rlx) ;; Ok (Next (lb, ub))
         else Ok (Next (lb, ub))
     | ST_LOWER =>
         lb <- wr lb i xi ;;
         ub <- (if eq then wr ub i xi else if relax then wr ub i (xi +' rlx) else Ok ub) ;; Ok (Next (lb, ub))
     | ST_UPPER =>
         ub <- wr ub i xi ;;
         lb <- (if eq then wr lb i xi else if relax then wr lb i (xi -' rlx) else Ok lb) ;; Ok (Next (lb, ub))
     | ST_INFEASIBLE_LOWER => Ok (Next (lb, ub))
     | ST_INFEASIBLE_UPPER => Ok (Next (lb, ub))
     | ST_UNDEFINED => Ok (Brk (lb, ub))
     end) (q_lb s, q_ub s) ;;
  Ok (match c with
      | Next (lb, ub) => (SUCCESSFUL_RETURN, set_q_ub ub (set_q_lb lb s))
      | Brk (lb, ub) => (RET_UNKNOWN_BUG, set_q_ub ub (set_q_lb lb s))
      end).

(** QProblemB.cpp:3407-3452 *)
Definition performDriftCorrection (s : qpb) : res qpb :=
  '(lb, ub, y) <- for_up 0 (nV s) (fun i '(lb, ub, y) =>
     ty <- st_getType (q_bounds s) i ;;
     match ty with
     | ST_BOUNDED =>
         v <- st_getStatus (q_bounds s) i ;;
         xi <- rd (q_x s) i ;; l <- rd lb i ;; u <- rd ub i ;; yi <- rd y i ;;
         match v with
         | ST_LOWER =>
             lb <- wr lb i xi ;; ub <- wr ub i (getMax u xi) ;; y <- wr y i (getMax yi n0) ;; Ok (lb, ub, y)
         | ST_UPPER =>
             lb <- wr lb i (getMin l xi) ;; ub <- wr ub i xi ;; y <- wr y i (getMin yi n0) ;; Ok (lb, ub, y)
         | ST_INACTIVE =>
             lb <- wr lb i (getMin l xi) ;; ub <- wr ub i (getMax u xi) ;; y <- wr y i n0 ;; Ok (lb, ub, y)
         | _ => Ok (lb, ub, y)
         end
     | ST_EQUALITY => xi <- rd (q_x s) i ;; lb <- wr lb i xi ;; ub <- wr ub i xi ;; Ok (lb, ub, y)
     | _ => Ok (lb, ub, y)
     end) (q_lb s, q_ub s, q_y s) ;;
  setupAuxiliaryQPgradient (set_q_y y (set_q_ub ub (set_q_lb lb s))).

(** QProblemB.cpp:3496-3502, 3566-3572 *)
Definition noUpdate (s : qpb) : bool :=
  match q_status s with
  | QPS_NOTINITIALISED | QPS_AUXILIARYQPSOLVED | QPS_HOMOTOPYQPSOLVED | QPS_SOLVED => true
  | _ => false
  end.
Definition plainH (s : qpb) : bool := negb (is_hst (q_htype s) HST_ZERO) && negb (is_hst (q_htype s) HST_IDENTITY).

(** QProblemB.cpp:3524-3540: delete column [k] of the nfr x nfr factor R *)
Definition chol_delete (n nfr k : Z) (R : arr) : res arr :=
  R <- for_up (k + 1) nfr (fun i R =>
         a <- rd R (i - 1 + n * i) ;; b <- rd R (i + n * i) ;;
         let '(a', b', c, sn) := computeGivens a b in
         R <- wr R (i - 1 + n * i) a' ;; R <- wr R (i + n * i) b' ;;
         for_up (i + 1) nfr (fun j R =>
           p <- rd R (i - 1 + n * j) ;; q <- rd R (i + n * j) ;;
           let '(p', q') := applyGivens c sn p q in
           R <- wr R (i - 1 + n * j) p' ;; wr R (i + n * j) q') R) R ;;
  R <- for_up 0 (nfr - 1) (fun i R =>
         for_up (k + 1) nfr (fun j R => v <- rd R (i + n * j) ;; wr R (i + n * (j - 1)) v) R) R ;;
  for_up 0 nfr (fun i R => wr R (i + n * (nfr - 1)) n0) R.

(** QProblemB.cpp:3486-3550 *)
Definition addBound (number : Z) (B_status : SubjectToStatus) (upd : bool) (s : qpb) : res (returnValue * qpb) :=
  if noUpdate s then Ok (RET_UNKNOWN_BUG, s) else
  let move (s : qpb) : res (returnValue * qpb) :=
    '(r, b) <- st_activate (q_bounds s) number B_status ;;
    Ok (if r =r? SUCCESSFUL_RETURN then SUCCESSFUL_RETURN else RET_ADDBOUND_FAILED, set_q_bounds b s) in
  if is_qps (q_status s) QPS_PREPARINGAUXILIARYQP then move s else
  s <- (if upd && plainH s then
          k <- il_getIndex (st_ina (q_bounds s)) number ;;
          R <- chol_delete (nV s) (nFR s) k (q_R s) ;;
          Ok (set_q_R R s)
        else Ok s) ;;
  move s.

(** QProblemB.cpp:3644-3652 and 3674-3682: restore the saved working set and
    factor, then put the variable on its other bound *)
Definition flipBound (number : Z) (s : qpb) : res (returnValue * qpb) :=
  '(b, R, _, _, _) <- fl_get (q_flip s) (Some (q_bounds s)) (Some (q_R s)) None None None ;;
  match b, R with
  | Some b, Some R =>
      '(_, b) <- st_flipFixed KBounds b number ;;
      let s := set_q_bounds b (set_q_R R s) in
      v <- st_getStatus b number ;;
      match v with
      | ST_LOWER => u <- rd (q_ub s) number ;; lb <- wr (q_lb s) number u ;; Ok (SUCCESSFUL_RETURN, set_q_lb lb s)
      | ST_UPPER => l <- rd (q_lb s) number ;; ub <- wr (q_ub s) number l ;; Ok (SUCCESSFUL_RETURN, set_q_ub ub s)
      | _ => Ok (RET_MOVING_BOUND_FAILED, s)
      end
  | _, _ => UB
  end.

(** QProblemB.cpp:3556-3687.  The cases HST_ZERO and HST_IDENTITY of the switch
    at 3600 are excluded by the condition at 3589. *)
Definition removeBound (number : Z) (upd : bool) (s : qpb) : res (returnValue * qpb) :=
  let n := nV s in
  let nfr := nFR s in
  if noUpdate s then Ok (RET_UNKNOWN_BUG, s) else
  let fb := o_enableFlippingBounds (q_opts s) in
  s <- (if fb then
          f <- fl_set junk (q_flip s) (Some (q_bounds s)) (Some (q_R s)) None None None ;; Ok (set_q_flip f s)
        else Ok s) ;;
  '(r, b) <- st_deactivate (q_bounds s) number ;;
  let s := set_q_bounds b s in
  if negb (r =r? SUCCESSFUL_RETURN) then Ok (RET_REMOVEBOUND_FAILED, s) else
  if is_qps (q_status s) QPS_PREPARINGAUXILIARYQP then Ok (SUCCESSFUL_RETURN, s) else
  let tail (s : qpb) : res (returnValue * qpb) :=
    if is_hst (q_htype s) HST_ZERO && fb then flipBound number s else Ok (SUCCESSFUL_RETURN, s) in
  if upd && plainH s then
    M <- q_theH s ;;
    rhs <- m_getRow M number (Some (st_ina (q_bounds s))) n1 (junk (nfr + 1)) ;;
    r0 <- m_diag M number ;;
    '(rv, r) <- qb_backsolveR s (Some rhs) true true (junk nfr) ;;
    if negb (rv =r? SUCCESSFUL_RETURN) then Ok (RET_REMOVEBOUND_FAILED, s) else
    r0 <- for_up 0 nfr (fun i r0 => v <- rd r i ;; Ok (r0 -' v *' v)) r0 ;;
    R <- for_up 0 nfr (fun i R => v <- rd r i ;; wr R (i + n * nfr) v) (q_R s) ;;
    let s := set_q_R R s in
    if fb then
      if r0 >' o_epsFlipping (q_opts s) then
        R <- wr R (nfr + n * nfr) (nsqrt r0) ;; tail (set_q_R R s)
      else
        '(rv, s) <- flipBound number (set_q_htype HST_SEMIDEF s) ;;
        if negb (rv =r? SUCCESSFUL_RETURN) then Ok (rv, s) else tail s
    else
      if r0 >' nZERO then
        R <- wr R (nfr + n * nfr) (nsqrt r0) ;; tail (set_q_R R s)
      else Ok (RET_HESSIAN_NOT_SPD, set_q_htype HST_SEMIDEF s)
  else tail s.

(** QProblemB.cpp:2763-2824 *)
Definition setupAuxiliaryWorkingSet (aux : option subjectTo) (afresh : bool) (s : qpb) : res (returnValue * qpb) :=
  match aux with
  | None => Ok (RET_INVALID_ARGUMENTS, s)
  | Some aux =>
      c <- forb_up 0 (nV s) (fun i _ =>
             a <- st_getStatus (q_bounds s) i ;;
             if is_sts a ST_UNDEFINED then Ok (Brk tt) else
             b <- st_getStatus aux i ;;
             if is_sts b ST_UNDEFINED then Ok (Brk tt) else Ok (Next tt)) tt ;;
      match c with
      | Brk _ => Ok (RET_UNKNOWN_BUG, s)
      | Next _ =>
          let upd := negb afresh in
          c <- (if afresh then Ok (Next s) else
                forb_up 0 (nV s) (fun i s =>
                  let drop (st : SubjectToStatus) (s : qpb) : res (ctl qpb qpb) :=
                    a <- st_getStatus (q_bounds s) i ;;
                    b <- st_getStatus aux i ;;
                    if is_sts a st && negb (is_sts b st) then
                      '(r, s) <- removeBound i upd s ;;
                      if r =r? SUCCESSFUL_RETURN then Ok (Next s) else Ok (Brk s)
                    else Ok (Next s) in
                  c <- drop ST_LOWER s ;;
                  match c with Brk s => Ok (Brk s) | Next s => drop ST_UPPER s end) s) ;;
          match c with
          | Brk s => Ok (RET_SETUP_WORKINGSET_FAILED, s)
          | Next s =>
              c <- forb_up 0 (nV s) (fun i s =>
                     a <- st_getStatus (q_bounds s) i ;;
                     b <- st_getStatus aux i ;;
                     if is_sts a ST_INACTIVE && negb (is_sts b ST_INACTIVE) then
                       '(r, s) <- addBound i b upd s ;;
                       if r =r? SUCCESSFUL_RETURN then Ok (Next s) else Ok (Brk s)
                     else Ok (Next s)) s ;;
              Ok (match c with Brk s => (RET_SETUP_WORKINGSET_FAILED, s) | Next s => (SUCCESSFUL_RETURN, s) end)
          end
      end
  end.

(** QProblemB.cpp:3458-3480 *)
Definition shallRefactorise (guess : subjectTo) (s : qpb) : res bool :=
  if is_hst (q_htype s) HST_SEMIDEF || is_hst (q_htype s) HST_INDEF then Ok true else
  d <- for_up 0 (nV s) (fun i d =>
         a <- st_getStatus guess i ;; b <- st_getStatus (q_bounds s) i ;;
         Ok (if is_sts a b then d else d + 1)) 0 ;;
  Ok (st_nAct guess <? 2 * d).

(** QProblemB.cpp:2980-3036 *)
Definition setupAuxiliaryQP (guess : subjectTo) (s : qpb) : res (returnValue * qpb) :=
  let s := set_q_status QPS_PREPARINGAUXILIARYQP s in
  b <- shallRefactorise guess s ;;
  '(r, s) <- (if b : bool then
      let s := set_q_bounds (snd (st_init (q_bounds s) (nV s))) s in
      s <- setupSubjectToType (Some (q_lb s)) (Some (q_ub s)) s ;;
      '(r, bd) <- st_setupAll KBounds (q_bounds s) ST_INACTIVE ;;
      let s := set_q_bounds bd s in
      if negb (r =r? SUCCESSFUL_RETURN) then Ok (RET_SETUP_AUXILIARYQP_FAILED, s) else
      '(_, s) <- setupAuxiliaryWorkingSet (Some guess) true s ;;
      '(r, s) <- computeCholesky s ;;
      Ok (if r =r? SUCCESSFUL_RETURN then SUCCESSFUL_RETURN else RET_SETUP_AUXILIARYQP_FAILED, s)
    else
      '(_, s) <- setupAuxiliaryWorkingSet (Some guess) false s ;; Ok (SUCCESSFUL_RETURN, s)) ;;
  if negb (r =r? SUCCESSFUL_RETURN) then Ok (r, s) else
  y <- for_up 0 (nV s) (fun i y =>
         v <- st_getStatus (q_bounds s) i ;; if is_sts v ST_INACTIVE then wr y i n0 else Ok y) (q_y s) ;;
  s <- setupAuxiliaryQPgradient (set_q_y y s) ;;
  '(_, s) <- setupAuxiliaryQPbounds false s ;;
  Ok (SUCCESSFUL_RETURN, s).

(** QProblemB.cpp:3066-3083 *)
Definition sd_xFX (s : qpb) (d : deltas N) (isZ : bool) : res arr :=
  for_up 0 (nFX s) (fun i a =>
    if isZ then wr a i n0 else
    ii <- rd (FX_idx s) i ;;
    v <- st_getStatus (q_bounds s) ii ;;
    w <- (if is_sts v ST_LOWER then rd (dl_lb d) ii else rd (dl_ub d) ii) ;;
    wr a i w) (dl_xFX d).

(** delta_xFR_TMP := -delta_g on the free variables (3088-3093, 3126-3130) *)
Definition sd_rhs (s : qpb) (dg : arr) (tmp : arr) : res arr :=
  for_up 0 (nFR s) (fun i a => ii <- rd (FR_idx s) i ;; v <- rd dg ii ;; wr a i (-' v)) tmp.

(** max norm of the first n entries (3143-3144, 3153-3155) *)
Definition maxAbs (n : Z) (a : arr) (r : N) : res N :=
  for_up 0 n (fun i r => v <- rd a i ;; Ok (if r <' nabs v then nabs v else r)) r.

(** One round of QProblemB.cpp:3097-3165 *)
Definition sd_round (s : qpb) (d : deltas N) (isZ : bool) (xFX : arr) (r : Z) (st : arr * arr)
  : res (ctl (arr * arr) (returnValue * arr * arr)) :=
  let '(tmp, xFR) := st in
  c <- (if 0 <? nFR s then
          tmp <- (if plainH s && negb isZ && (r =? 0) then
                    M <- q_theH s ;;
                    m_times_idx M (st_ina (q_bounds s)) (st_act (q_bounds s)) 1 nm1 xFX (nFX s) n1 tmp (nFR s)
                  else Ok tmp) ;;
          '(rv, tmp) <- qb_backsolveR s None true false tmp ;;
          if negb (rv =r? SUCCESSFUL_RETURN) then Ok (Brk tmp) else
          '(rv, tmp) <- qb_backsolveR s None false false tmp ;;
          if negb (rv =r? SUCCESSFUL_RETURN) then Ok (Brk tmp) else Ok (Next tmp)
        else Ok (Next tmp)) ;;
  match c with
  | Brk tmp => Ok (Brk (RET_STEPDIRECTION_FAILED_CHOLESKY, tmp, xFR))
  | Next tmp =>
      xFR <- for_up 0 (nFR s) (fun i a => u <- rd a i ;; v <- rd tmp i ;; wr a i (u +' v)) xFR ;;
      if negb (0 <? o_numRefinementSteps (q_opts s)) then Ok (Next (tmp, xFR)) else
      tmp <- sd_rhs s (dl_g d) tmp ;;
      '(tmp, rnrm) <- match q_htype s with
        | HST_ZERO => Ok (tmp, n0)
        | HST_IDENTITY =>
            tmp <- for_up 0 (nFR s) (fun i a => u <- rd a i ;; v <- rd xFR i ;; wr a i (u -' v)) tmp ;;
            rn <- maxAbs (nFR s) tmp n0 ;; Ok (tmp, rn)
        | _ =>
            M <- q_theH s ;;
            tmp <- m_times_idx M (st_ina (q_bounds s)) (st_ina (q_bounds s)) 1 nm1 xFR (nFR s) n1 tmp (nFR s) ;;
            tmp <- m_times_idx M (st_ina (q_bounds s)) (st_act (q_bounds s)) 1 nm1 xFX (nFX s) n1 tmp (nFR s) ;;
            rn <- maxAbs (nFR s) tmp n0 ;; Ok (tmp, rn)
        end ;;
      if rnrm <' o_epsIterRef (q_opts s) then Ok (Brk (SUCCESSFUL_RETURN, tmp, xFR)) else Ok (Next (tmp, xFR))
  end.

(** QProblemB.cpp:3167-3200 *)
Definition sd_yFX (s : qpb) (d : deltas N) (isZ : bool) (xFX xFR : arr) : res arr :=
  if nFX s <=? 0 then Ok (dl_yFX d) else
  match q_htype s with
  | HST_ZERO | HST_IDENTITY =>
      for_up 0 (nFX s) (fun i a =>
        ii <- rd (FX_idx s) i ;; v <- rd (dl_g d) ii ;; w <- rd xFX i ;;
        wr a i (if is_hst (q_htype s) HST_ZERO then (if usingReg s then v +' q_regVal s *' w else v) else v +' w))
        (dl_yFX d)
  | _ =>
      a <- for_up 0 (nFX s) (fun i a => ii <- rd (FX_idx s) i ;; v <- rd (dl_g d) ii ;; wr a i v) (dl_yFX d) ;;
      M <- q_theH s ;;
      a <- m_times_idx M (st_act (q_bounds s)) (st_ina (q_bounds s)) 1 n1 xFR (nFR s) n1 a (nFX s) ;;
      if isZ then Ok a else
      m_times_idx M (st_act (q_bounds s)) (st_act (q_bounds s)) 1 n1 xFX (nFX s) n1 a (nFX s)
  end.

(** QProblemB.cpp:3042-3203 *)
Definition determineStepDirection (d : deltas N) (isZ : bool) (s : qpb) : res (returnValue * deltas N * qpb) :=
  xFX <- sd_xFX s d isZ ;;
  tmp <- sd_rhs s (dl_g d) (q_tmp s) ;;
  xFR <- for_up 0 (nFR s) (fun i a => wr a i n0) (dl_xFR d) ;;
  c <- forb_up 0 (o_numRefinementSteps (q_opts s) + 1) (sd_round s d isZ xFX) (tmp, xFR) ;;
  let '(rv, tmp, xFR) := match c with Next (tmp, xFR) => (SUCCESSFUL_RETURN, tmp, xFR) | Brk e => e end in
  let s := set_q_tmp tmp s in
  let d' := mkD (dl_g d) (dl_lb d) (dl_ub d) xFX xFR (dl_yFX d) in
  if negb (rv =r? SUCCESSFUL_RETURN) then Ok (rv, d', s) else
  yFX <- sd_yFX s d isZ xFX xFR ;;
  Ok (SUCCESSFUL_RETURN, mkD (dl_g d) (dl_lb d) (dl_ub d) xFX xFR yFX, s).

(** x[idx[i]] += tau*dx[i] for i < n *)
Definition stepIdx (n : Z) (idx : list Z) (tau : N) (dx x : arr) : res arr :=
  for_up 0 n (fun i x => ii <- rd idx i ;; u <- rd x ii ;; v <- rd dx i ;; wr x ii (u +' tau *' v)) x.
Definition stepAll (n : Z) (tau : N) (dx x : arr) : res arr :=
  for_up 0 n (fun i x => u <- rd x i ;; v <- rd dx i ;; wr x i (u +' tau *' v)) x.

(** num and den of the primal ratio tests: QProblemB.cpp:3261-3266, 3280-3285 *)
Definition primalNum (s : qpb) (up : bool) (num : arr) : res arr :=
  for_up 0 (nFR s) (fun i a =>
    ii <- rd (FR_idx s) i ;; xi <- rd (q_x s) ii ;;
    if up then u <- rd (q_ub s) ii ;; wr a i (getMax (u -' xi) n0)
    else l <- rd (q_lb s) ii ;; wr a i (getMax (xi -' l) n0)) num.
Definition primalDen (s : qpb) (d : deltas N) (up : bool) (den : arr) : res arr :=
  for_up 0 (nFR s) (fun i a =>
    ii <- rd (FR_idx s) i ;;
    if up then dx <- rd (dl_xFR d) i ;; u <- rd (dl_ub d) ii ;; wr a i (dx -' u)
    else l <- rd (dl_lb d) ii ;; dx <- rd (dl_xFR d) i ;; wr a i (l -' dx)) den.

(** QProblemB.cpp:3228-3297: step length and blocking bound *)
Definition ratioTests (d : deltas N) (s : qpb) : res (N * Z * SubjectToStatus) :=
  let o := q_opts s in
  num <- for_up 0 (nFX s) (fun i a => ii <- rd (FX_idx s) i ;; v <- rd (q_y s) ii ;; wr a i v) (junk (nV s)) ;;
  den <- for_up 0 (nFX s) (fun i a => v <- rd (dl_yFX d) i ;; wr a i (-' v)) (junk (nV s)) ;;
  '(t, b) <- performRatioTest (nFX s) (FX_idx s) (q_bounds s) num den (o_epsNum o) (o_epsDen o) n1 ;;
  let '(bi, bs) := if 0 <=? b then (b, ST_INACTIVE) else (-1, ST_UNDEFINED) in
  '(t, bi, bs, num, den) <-
    (if st_noLower (q_bounds s) then Ok (t, bi, bs, num, den) else
     num <- primalNum s false num ;; den <- primalDen s d false den ;;
     '(t, b) <- performRatioTest (nFR s) (FR_idx s) (q_bounds s) num den (o_epsNum o) (o_epsDen o) t ;;
     Ok (if 0 <=? b then (t, b, ST_LOWER, num, den) else (t, bi, bs, num, den))) ;;
  if st_noUpper (q_bounds s) then Ok (t, bi, bs) else
  num <- primalNum s true num ;; den <- primalDen s d true den ;;
  '(t, b) <- performRatioTest (nFR s) (FR_idx s) (q_bounds s) num den (o_epsNum o) (o_epsDen o) t ;;
  Ok (if 0 <=? b then (t, b, ST_UPPER) else (t, bi, bs)).

(** QProblemB.cpp:3312-3336 *)
Definition applyStep (d : deltas N) (s : qpb) : res qpb :=
  let tau := q_tau s in
  if tau >' nZERO then
    x <- stepIdx (nFR s) (FR_idx s) tau (dl_xFR d) (q_x s) ;;
    x <- stepIdx (nFX s) (FX_idx s) tau (dl_xFX d) x ;;
    y <- stepIdx (nFX s) (FX_idx s) tau (dl_yFX d) (q_y s) ;;
    g <- stepAll (nV s) tau (dl_g d) (q_g s) ;;
    lb <- stepAll (nV s) tau (dl_lb d) (q_lb s) ;;
    ub <- stepAll (nV s) tau (dl_ub d) (q_ub s) ;;
    Ok (set_q_ub ub (set_q_lb lb (set_q_g g (set_q_y y (set_q_x x s)))))
  else Ok s.

(** QProblemB.cpp:3209-3348; always successful *)
Definition performStep (d : deltas N) (s : qpb) : res (Z * SubjectToStatus * qpb) :=
  '(t, bi, bs) <- ratioTests d s ;;
  s <- applyStep d (set_q_tau t s) ;;
  Ok (bi, bs, s).

(** QProblemB.cpp:3354-3400 *)
Definition changeActiveSet (bi : Z) (bs : SubjectToStatus) (s : qpb) : res (returnValue * qpb) :=
  match bs with
  | ST_UNDEFINED => Ok (RET_OPTIMAL_SOLUTION_FOUND, s)
  | ST_INACTIVE =>
      '(r, s) <- removeBound bi true s ;;
      if negb (r =r? SUCCESSFUL_RETURN) then Ok (RET_REMOVE_FROM_ACTIVESET_FAILED, s) else
      y <- wr (q_y s) bi n0 ;; Ok (SUCCESSFUL_RETURN, set_q_y y s)
  | _ =>
      '(r, s) <- addBound bi bs true s ;;
      Ok (if r =r? SUCCESSFUL_RETURN then SUCCESSFUL_RETURN else RET_ADD_TO_ACTIVESET_FAILED, s)
  end.

(** QProblemB.cpp:1971-1993: no limit before the first iteration *)
Definition cpuExceeded (k : Z) (s : qpb) : bool * qpb :=
  if k <=? 0 then (false, s) else (cpu (q_clk s), set_q_clk (q_clk s + 1) s).

(** QProblemB.cpp:2598-2619: refactorisation, ramping, drift correction after
    the working set change of iteration [iter] *)
Definition afterChange (iter : Z) (s : qpb) : res (returnValue * qpb) :=
  let o := q_opts s in
  '(r, s) <- (if (0 <? o_enableCholeskyRefactorisation o) && (Z.rem iter (o_enableCholeskyRefactorisation o) =? 0)
              then computeCholesky s else Ok (SUCCESSFUL_RETURN, s)) ;;
  if negb (r =r? SUCCESSFUL_RETURN) then Ok (r, s) else
  s <- (if (q_tau s <=' nEPS) && o_enableRamping (q_opts s) then performRamping s else
        if (0 <? o_enableDriftCorrection (q_opts s))
           && (Z.rem (iter + 1) (o_enableDriftCorrection (q_opts s)) =? 0)
        then performDriftCorrection s else Ok s) ;;
  Ok (SUCCESSFUL_RETURN, set_q_status QPS_HOMOTOPYQPSOLVED s).

(** One iteration, QProblemB.cpp:2464-2623.  [Brk (r, n, s)]: solveQP returns r
    and nWSR is n. *)
Definition solveIter (gn : arr) (lbn ubn : option arr) (nWSR performed iter : Z) (st : qpb * deltas N)
  : res (ctl (qpb * deltas N) (returnValue * Z * qpb)) :=
  let '(s, d) := st in
  let '(ex, s) := cpuExceeded (iter - performed) s in
  if ex then Ok (Brk (RET_MAX_NWSR_REACHED, iter, s)) else
  let s := set_q_status QPS_PERFORMINGHOMOTOPY s in
  '(d, isZ) <- determineDataShift gn lbn ubn s d ;;
  '(r, d, s) <- determineStepDirection d isZ s ;;
  if negb (r =r? SUCCESSFUL_RETURN) then Ok (Brk (r, iter, s)) else
  '(bi, bs, s) <- performStep d s ;;
  len <- getRelativeHomotopyLength gn lbn ubn s ;;
  if len <=' o_terminationTolerance (q_opts s) then
    Ok (Brk (SUCCESSFUL_RETURN, iter, set_q_status QPS_SOLVED s))
  else
  '(r, s) <- changeActiveSet bi bs s ;;
  if negb (r =r? SUCCESSFUL_RETURN) then
    if q_infeasible s then
      Ok (Brk (RET_HOTSTART_STOPPED_INFEASIBILITY, iter, set_q_infeasible true (set_q_status QPS_HOMOTOPYQPSOLVED s)))
    else if q_unbounded s then Ok (Brk (RET_HOTSTART_STOPPED_UNBOUNDEDNESS, iter, s))
    else Ok (Brk (r, iter, s))
  else
  '(r, s) <- afterChange iter (set_q_wsc (q_wsc s + 1) s) ;;
  if negb (r =r? SUCCESSFUL_RETURN) then Ok (Brk (r, nWSR, s)) else Ok (Next (s, d)).

Definition freshDeltas (n : Z) : deltas N := mkD (junk n) (junk n) (junk n) (junk n) (junk n) (junk n).

(** QProblemB.cpp:2407-2648; returns the return value, nWSR and the object *)
Definition solveQP (gn : arr) (lbn ubn : option arr) (nWSR performed : Z) (s : qpb) : res (returnValue * Z * qpb) :=
  match q_status s with
  | QPS_NOTINITIALISED | QPS_PREPARINGAUXILIARYQP | QPS_PERFORMINGHOMOTOPY =>
      Ok (RET_HOTSTART_FAILED_AS_QP_NOT_INITIALISED, nWSR, s)
  | _ =>
      s <- setupSubjectToType lbn ubn s ;;
      let s := set_q_unbounded false (set_q_infeasible false s) in
      c <- forb_up performed nWSR (solveIter gn lbn ubn nWSR performed) (s, freshDeltas (nV s)) ;;
      Ok (match c with Brk e => e | Next (s, _) => (RET_MAX_NWSR_REACHED, nWSR, s) end)
  end.

(** QProblemB.cpp:2654-2757 *)
Definition solveRegularisedQP (gn : arr) (lbn ubn : option arr) (nWSR performed : Z) (s : qpb)
  : res (returnValue * Z * qpb) :=
  if negb (usingReg s) then solveQP gn lbn ubn nWSR performed s else
  '(r, total, s) <- solveQP gn lbn ubn nWSR performed s ;;
  if negb (r =r? SUCCESSFUL_RETURN) then Ok (r, total, s) else
  c <- forb_up 0 (o_numRegularisationSteps (q_opts s)) (fun _ '(total, s, gMod) =>
         gMod <- for_up 0 (nV s) (fun i a =>
                   u <- rd gn i ;; v <- rd (q_x s) i ;; wr a i (u -' q_regVal s *' v)) gMod ;;
         '(r, total, s) <- solveQP gMod lbn ubn nWSR total s ;;
         if negb (r =r? SUCCESSFUL_RETURN) then Ok (Brk (r, total, s)) else Ok (Next (total, s, gMod)))
       (total, s, junk (nV s)) ;;
  match c with
  | Brk e => Ok e
  | Next (total, s, _) =>
      g <- for_up 0 (nV s) (fun i a => u <- rd gn i ;; wr a i u) (q_g s) ;;
      Ok (SUCCESSFUL_RETURN, total, set_q_g g s)
  end.

(** QProblemB.cpp:489-494 *)
Definition extendFar (lbn ubn : option arr) (n : Z) (far : N) : res N :=
  far <- match ubn with
         | None => Ok far
         | Some a => for_up 0 n (fun i far => u <- rd a i ;; Ok (if (u <' nINFTY) && (u >' far) then u else far)) far
         end ;;
  match lbn with
  | None => Ok far
  | Some a => for_up 0 n (fun i far => l <- rd a i ;;
                Ok (if (l >' -' nINFTY) && (l <' -' far) then -' l else far)) far
  end.

(** QProblemB.cpp:534-542 *)
Definition countActiveFar (lbn ubn : option arr) (lf uf : arr) (tol : N) (s : qpb) : res Z :=
  for_up 0 (nV s) (fun i c =>
    l <- rd lf i ;; u <- rd uf i ;; xi <- rd (q_x s) i ;;
    a <- match lbn with None => Ok true | Some w => v <- rd w i ;; Ok (l >' v) end ;;
    b <- match ubn with None => Ok true | Some w => v <- rd w i ;; Ok (u <' v) end ;;
    let c := if (a : bool) && (nabs (l -' xi) <' tol) then c + 1 else c in
    Ok (if (b : bool) && (nabs (u -' xi) <' tol) then c + 1 else c)) 0.

(** QProblemB.cpp:500-568, one round per unit of [fuel]; [Hang] when it runs out *)
Fixpoint farLoop (fuel : nat) (gn : arr) (lbn ubn : option arr) (nWSRmax performed : Z) (far : N) (lf uf : arr) (s : qpb)
  : res (returnValue * Z * qpb) :=
  match fuel with
  | O => Hang
  | S fuel =>
      '(r, nWSR, s) <- solveRegularisedQP gn (Some lf) (Some uf) nWSRmax performed s ;;
      let far := far *' o_growFarBounds (q_opts s) in
      let again (s : qpb) : res (returnValue * Z * qpb) :=
        '(lf, uf) <- updateFarBounds far (nV s) lbn ubn s lf uf ;;
        farLoop fuel gn lbn ubn nWSRmax nWSR far lf uf (set_q_rampOffset (q_rampOffset s + 1) s) in
      if q_infeasible s then
        if far >=' nINFTY then Ok (RET_HOTSTART_STOPPED_INFEASIBILITY, nWSR, s) else again s
      else if is_qps (q_status s) QPS_SOLVED then
        k <- countActiveFar lbn ubn lf uf (far /' o_growFarBounds (q_opts s) *' o_boundTolerance (q_opts s)) s ;;
        if k =? 0 then Ok (r, nWSR, s) else
        let s := set_q_status QPS_HOMOTOPYQPSOLVED s in
        if far >=' nINFTY then Ok (RET_HOTSTART_STOPPED_UNBOUNDEDNESS, nWSR, set_q_unbounded true s) else again s
      else Ok (r, nWSR, s)
  end.

(** QProblemB.cpp:414-578 *)
Definition hotstart (fuel : nat) (gn : arr) (lbn ubn : option arr) (nWSR : Z) (guess : option subjectTo) (s : qpb)
  : res (returnValue * Z * qpb) :=
  if nV s =? 0 then Ok (RET_QPOBJECT_NOT_SETUP, nWSR, s) else
  '(r, s) <- match guess with
             | None => Ok (SUCCESSFUL_RETURN, s)
             | Some gb =>
                 '(r, s) <- setupAuxiliaryQP gb s ;;
                 if negb (r =r? SUCCESSFUL_RETURN) then Ok (RET_SETUP_AUXILIARYQP_FAILED, s)
                 else Ok (SUCCESSFUL_RETURN, set_q_status QPS_AUXILIARYQPSOLVED s)
             end ;;
  if negb (r =r? SUCCESSFUL_RETURN) then Ok (r, nWSR, s) else
  r <- areBoundsConsistent lbn ubn s ;;
  (* returnvalue is still SUCCESSFUL_RETURN here (line 449, 453) *)
  if negb (r =r? SUCCESSFUL_RETURN) then Ok (SUCCESSFUL_RETURN, nWSR, set_q_infeasible true s) else
  let s := set_q_count (q_count s + 1) s in
  '(r, s) <- (if q_haveChol s then Ok (SUCCESSFUL_RETURN, s) else setupInitialCholesky s) ;;
  if negb (r =r? SUCCESSFUL_RETURN) then Ok (r, nWSR, s) else
  if negb (o_enableFarBounds (q_opts s)) then solveRegularisedQP gn lbn ubn nWSR 0 s else
  far <- extendFar lbn ubn (nV s) (o_initialFarBounds (q_opts s)) ;;
  '(lf, uf) <- updateFarBounds far (nV s) lbn ubn s (junk (nV s)) (junk (nV s)) ;;
  farLoop fuel gn lbn ubn nWSR 0 far lf uf s.

(** QProblemB.cpp:2315-2339 *)
Definition copyR (Rin : option arr) (xOpt yOpt : option arr) (guess : option subjectTo) (s : qpb) : res qpb :=
  let s := set_q_haveChol false s in
  match Rin with
  | None => Ok s
  | Some r =>
      if negb (is_sts (o_initialStatusBounds (q_opts s)) ST_INACTIVE) then Ok s else
      match xOpt, yOpt, guess with
      | None, None, None =>
          R <- for_up 0 (nV s) (fun i R =>
                 for_up i (nV s) (fun j R => v <- rd r (i * nV s + j) ;; wr R (i + nV s * j) v) R) (q_R s) ;;
          Ok (set_q_haveChol true (set_q_R R s))
      | _, _, _ => Ok s
      end
  end.

(** QProblemB.cpp:2259-2401 up to the call of hotstart; on success also returns
    the original gradient and bounds *)
Definition prepareInitial (xOpt yOpt : option arr) (guess : option subjectTo) (Rin : option arr) (s : qpb)
  : res (returnValue * (arr * arr * arr) * qpb) :=
  let none : arr * arr * arr := ([], [], []) in
  let s := set_q_status QPS_NOTINITIALISED s in
  '(r, s) <- determineHessianType s ;;
  if negb (r =r? SUCCESSFUL_RETURN) then Ok (RET_INIT_FAILED, none, s) else
  s <- setupSubjectToType (Some (q_lb s)) (Some (q_ub s)) s ;;
  let s := set_q_status QPS_PREPARINGAUXILIARYQP s in
  '(r, b) <- st_setupAll KBounds (q_bounds s) ST_INACTIVE ;;
  let s := set_q_bounds b s in
  if negb (r =r? SUCCESSFUL_RETURN) then Ok (RET_INIT_FAILED, none, s) else
  s <- setupAuxiliaryQPsolution xOpt yOpt s ;;
  '(r, aux) <- obtainAuxiliaryWorkingSet xOpt yOpt guess s (st_new (nV s)) ;;
  if negb (r =r? SUCCESSFUL_RETURN) then Ok (RET_INIT_FAILED, none, s) else
  '(r, s) <- setupAuxiliaryWorkingSet (Some aux) true s ;;
  if negb (r =r? SUCCESSFUL_RETURN) then Ok (RET_INIT_FAILED, none, s) else
  '(r, s) <- (if is_hst (q_htype s) HST_ZERO || is_hst (q_htype s) HST_SEMIDEF
              then regulariseHessian s else Ok (SUCCESSFUL_RETURN, s)) ;;
  if negb (r =r? SUCCESSFUL_RETURN) then Ok (RET_INIT_FAILED_REGULARISATION, none, s) else
  s <- copyR Rin xOpt yOpt guess s ;;
  let copy (src : arr) := for_up 0 (nV s) (fun i a => v <- rd src i ;; wr a i v) (junk (nV s)) in
  g0 <- copy (q_g s) ;; lb0 <- copy (q_lb s) ;; ub0 <- copy (q_ub s) ;;
  s <- setupAuxiliaryQPgradient s ;;
  '(r, s) <- setupAuxiliaryQPbounds true s ;;
  if negb (r =r? SUCCESSFUL_RETURN) then Ok (RET_INIT_FAILED, none, s) else
  Ok (SUCCESSFUL_RETURN, (g0, lb0, ub0), set_q_status QPS_AUXILIARYQPSOLVED s).

(** QProblemB.cpp:2259-2401 *)
Definition solveInitialQP (fuel : nat) (xOpt yOpt : option arr) (guess : option subjectTo) (Rin : option arr)
    (nWSR : Z) (s : qpb) : res (returnValue * Z * qpb) :=
  '(r, (g0, lb0, ub0), s) <- prepareInitial xOpt yOpt guess Rin s ;;
  if negb (r =r? SUCCESSFUL_RETURN) then Ok (r, nWSR, s) else
  '(r, nWSR, s) <- hotstart fuel g0 (Some lb0) (Some ub0) nWSR None s ;;
  if q_infeasible s then Ok (RET_INIT_FAILED_INFEASIBILITY, nWSR, s) else
  if q_unbounded s then Ok (RET_INIT_FAILED_UNBOUNDEDNESS, nWSR, s) else
  if negb (r =r? SUCCESSFUL_RETURN) && negb (r =r? RET_MAX_NWSR_REACHED)
  then Ok (RET_INIT_FAILED_HOTSTART, nWSR, s) else Ok (r, nWSR, s).

(** QProblemB.cpp:274-281 *)
Definition guessDefined (guess : option subjectTo) (n : Z) : res bool :=
  match guess with
  | None => Ok true
  | Some gb => c <- forb_up 0 n (fun i _ => v <- st_getStatus gb i ;;
                      if is_sts v ST_UNDEFINED then Ok (Brk tt) else Ok (Next tt)) tt ;;
               Ok (match c with Brk _ => false | Next _ => true end)
  end.

(** QProblemB.cpp:253-345 *)
Definition qb_init (fuel : nat) (h : harg N) (g lb ub : option arr) (nWSR : Z) (xOpt yOpt : option arr)
    (guess : option subjectTo) (Rin : option arr) (s : qpb) : res (returnValue * Z * qpb) :=
  if nV s =? 0 then Ok (RET_QPOBJECT_NOT_SETUP, nWSR, s) else
  s <- (if isInitialised s then '(_, s) <- qb_reset s ;; Ok s else Ok s) ;;
  ok <- guessDefined guess (nV s) ;;
  if negb ok then Ok (RET_INVALID_ARGUMENTS, nWSR, s) else
  if match xOpt, yOpt, guess with None, Some _, Some _ => true | _, _, _ => false end
  then Ok (RET_INVALID_ARGUMENTS, nWSR, s) else
  if match Rin, xOpt, yOpt, guess with None, _, _, _ => false | Some _, None, None, None => false | _, _, _, _ => true end
  then Ok (RET_NO_CHOLESKY_WITH_INITIAL_GUESS, nWSR, s) else
  '(r, s) <- setupQPdata h g lb ub s ;;
  if negb (r =r? SUCCESSFUL_RETURN) then Ok (RET_INVALID_ARGUMENTS, nWSR, s) else
  solveInitialQP fuel xOpt yOpt guess Rin nWSR s.

(** QProblemB.cpp:653-672 *)
Definition getWorkingSetBounds (s : qpb) (ws : arr) : res arr :=
  for_up 0 (nV s) (fun i a =>
    v <- st_getStatus (q_bounds s) i ;;
    wr a i (match v with ST_LOWER => nm1 | ST_UPPER => n1 | _ => n0 end)) ws.

(** QProblemB.cpp:724-768 *)
Definition getObjValAt (s : qpb) (x : arr) : res N :=
  if nV s =? 0 then Ok n0 else
  let half : N := nlit 5 (-1) in
  v <- for_up 0 (nV s) (fun i v => a <- rd x i ;; b <- rd (q_g s) i ;; Ok (v +' a *' b)) n0 ;;
  v <- match q_htype s with
       | HST_ZERO => Ok v
       | HST_IDENTITY => for_up 0 (nV s) (fun i v => a <- rd x i ;; Ok (v +' half *' a *' a)) v
       | _ =>
           M <- q_theH s ;;
           Hx <- m_times M 1 n1 x (nV s) n0 (junk (nV s)) (nV s) ;;
           for_up 0 (nV s) (fun i v => a <- rd x i ;; b <- rd Hx i ;; Ok (v +' half *' a *' b)) v
       end ;;
  if usingReg s then
    for_up 0 (nV s) (fun i v => a <- rd x i ;; Ok (v +' half *' a *' q_regVal s *' a)) v
  else Ok v.

(** QProblemB.cpp:706-708, 780-782, 808-810 *)
Definition hasSolution (s : qpb) : bool :=
  match q_status s with QPS_AUXILIARYQPSOLVED | QPS_HOMOTOPYQPSOLVED | QPS_SOLVED => true | _ => false end.
(** QProblemB.cpp:700-718 *)
Definition getObjVal (s : qpb) : res N := if hasSolution s then getObjValAt s (q_x s) else Ok nINFTY.
(** QProblemB.cpp:774-793 *)
Definition getPrimalSolution (s : qpb) (xOpt : arr) : res (returnValue * arr) :=
  if hasSolution s then
    a <- for_up 0 (nV s) (fun i a => v <- rd (q_x s) i ;; wr a i v) xOpt ;; Ok (SUCCESSFUL_RETURN, a)
  else Ok (RET_QP_NOT_SOLVED, xOpt).
(** QProblemB.cpp:799-818 *)
Definition getDualSolution (s : qpb) (yOpt : arr) : res (returnValue * arr) :=
  a <- for_up 0 (nV s) (fun i a => v <- rd (q_y s) i ;; wr a i v) yOpt ;;
  Ok (if hasSolution s then SUCCESSFUL_RETURN else RET_QP_NOT_SOLVED, a).
End QProblemB.
