(** Model of src/SQProblem.cpp: hotstarts with new matrices.

    SQProblem has no members of its own.  The simplifications of QProblem5.v
    apply; the ownership of the matrices is the subject of Ownership.v. *)
From Verif Require Import Base Types Num Options Indexlist SubjectTo Flipper Matrices LinAlg QProblemB QProblem QProblem2 QProblem3 QProblem4 QProblem5.
Local Open Scope Z_scope.

Section QP6.
Context {N : Num}.
Notation arr := (list N).
Notation qpb := (qpb N).
Notation qp := (qp N).
Variable junk : Z -> arr.
Variable cpu : Z -> bool.

(** SQProblem.cpp:101-106, 148-153, 337-342 *)
Definition sq_refuses (s : qp) : bool :=
  match q_status (p_b s) with
  | QPS_NOTINITIALISED | QPS_PREPARINGAUXILIARYQP | QPS_PERFORMINGHOMOTOPY => true
  | _ => false
  end.

(** the arrays lbA, ubA, Ax_l, Ax_u of an object *)
Definition set_limits (t : arr * arr * arr * arr) (s : qp) : qp :=
  let '(lbA, ubA, Al, Au) := t in set_p_Ax_u Au (set_p_Ax_l Al (set_p_ubA ubA (set_p_lbA lbA s))).

(** 347-379: new constraint matrix; only called for nC > 0 *)
Definition sq_newA (M : amat N) (s : qp) : res qp :=
  let m := pC s in
  '(lbA, ubA) <- for_up 0 m (fun i '(lbA, ubA) =>
     l <- rd (p_Ax_l s) i ;; lbA <- wr lbA i (-' l) ;;
     u <- rd (p_Ax_u s) i ;; ubA <- wr ubA i u ;; Ok (lbA, ubA)) (p_lbA s, p_ubA s) ;;
  '(_, s) <- p_setA junk (AMat (Some M)) (set_p_ubA ubA (set_p_lbA lbA s)) ;;
  '(lbA, ubA) <- for_up 0 m (fun i '(lbA, ubA) =>
     a <- rd (p_Ax s) i ;;
     l <- rd lbA i ;; lbA <- wr lbA i (l +' a) ;;
     u <- rd ubA i ;; ubA <- wr ubA i (u +' a) ;; Ok (lbA, ubA)) (p_lbA s, p_ubA s) ;;
  '(Au, Al) <- for_up 0 m (fun i '(Au, Al) =>
     u <- rd ubA i ;; a <- rd (p_Ax s) i ;; Au <- wr Au i (u -' a) ;;
     l <- rd lbA i ;; Al <- wr Al i (a -' l) ;; Ok (Au, Al)) (p_Ax_u s, p_Ax_l s) ;;
  Ok (set_limits (lbA, ubA, Al, Au) s).

(** 381-411: new Hessian *)
Definition sq_newH (H : option (symmat N)) (s : qp) : res (returnValue * qp) :=
  match H with
  | Some M =>
      '(r, b) <- determineHessianType (set_q_htype HST_UNKNOWN (qb_setH (HMat (Some M)) (p_b s))) ;;
      if negb (r =r? SUCCESSFUL_RETURN) then Ok (RET_SETUP_AUXILIARYQP_FAILED, set_p_b b s) else
      if is_hst (q_htype b) HST_ZERO || is_hst (q_htype b) HST_SEMIDEF || usingReg b then
        '(r, b) <- regulariseHessian (set_q_regVal n0 b) ;;
        Ok (if r =r? SUCCESSFUL_RETURN then SUCCESSFUL_RETURN else RET_SETUP_AUXILIARYQP_FAILED, set_p_b b s)
      else Ok (SUCCESSFUL_RETURN, set_p_b b s)
  | None =>
      match q_H (p_b s) with Some _ => Ok (RET_NO_HESSIAN_SPECIFIED, s) | None => Ok (SUCCESSFUL_RETURN, s) end
  end.

(** 456-477: an equality that has become a two-sided one is put on the side its
    multiplier belongs to *)
Definition sq_signs (n off : Z) (y : arr) (own old : subjectTo) : res subjectTo :=
  for_up 0 n (fun i old =>
    t <- st_getType old i ;; u <- st_getType own i ;;
    if is_stt t ST_EQUALITY && is_stt u ST_BOUNDED then
      v <- st_getStatus old i ;;
      yi <- rd y (off + i) ;;
      if is_sts v ST_LOWER && (yi <' n0) then '(_, old) <- st_setStatus old i ST_UPPER ;; Ok old
      else if is_sts v ST_UPPER && (yi >' n0) then '(_, old) <- st_setStatus old i ST_LOWER ;; Ok old
      else Ok old
    else Ok old) old.

(** 424-488, one attempt: first the return value of the function ([SUCCESSFUL_RETURN]:
    it goes on), then that of the factorisation *)
Definition sq_attempt (lbn ubn lbAn ubAn : option arr) (oB oC : subjectTo) (s : qp)
  : res (returnValue * returnValue * subjectTo * subjectTo * qp) :=
  let fail (s : qp) := Ok (RET_SETUP_AUXILIARYQP_FAILED, SUCCESSFUL_RETURN, oB, oC, s) in
  let s := up_b (set_q_bounds (snd (st_init (p_bounds s) (pV s)))) s in
  let s := set_p_cons (snd (st_init (p_cons s) (pC s))) s in
  s <- p_setupSubjectToType lbn ubn lbAn ubAn s ;;
  '(r, bd) <- st_setupAll KBounds (p_bounds s) ST_INACTIVE ;;
  let s := up_b (set_q_bounds bd) s in
  if negb (r =r? SUCCESSFUL_RETURN) then fail s else
  '(r, cn) <- st_setupAll KConstraints (p_cons s) ST_INACTIVE ;;
  let s := set_p_cons cn s in
  if negb (r =r? SUCCESSFUL_RETURN) then fail s else
  '(r, s) <- setupTQfactorisation s ;;
  if negb (r =r? SUCCESSFUL_RETURN) then fail s else
  oC <- sq_signs (pC s) (pV s) (q_y (p_b s)) (p_cons s) oC ;;
  oB <- sq_signs (pV s) 0 (q_y (p_b s)) (p_bounds s) oB ;;
  '(r, s) <- p_setupAuxiliaryWorkingSet junk (Some oB) (Some oC) true s ;;
  if negb (r =r? SUCCESSFUL_RETURN) then Ok (RET_SETUP_AUXILIARYQP_FAILED, SUCCESSFUL_RETURN, oB, oC, s) else
  '(rc, s) <- computeProjectedCholesky s ;;
  Ok (SUCCESSFUL_RETURN, rc, oB, oC, s).

(** 428-433 *)
Definition sq_allActive (v : SubjectToStatus) (n : Z) (oB : subjectTo) : res subjectTo :=
  for_up 0 n (fun i oB =>
    w <- st_getStatus oB i ;;
    if is_sts w ST_INACTIVE then '(_, oB) <- st_setStatus oB i v ;; Ok oB else Ok oB) oB.

(** 490-497 *)
Definition sq_adjust (s : qp) : res qp :=
  '(Al, Au) <- for_up 0 (pC s) (fun i '(Al, Au) =>
     a <- rd (p_Ax s) i ;; Au <- wr Au i a ;; Al <- wr Al i a ;; Ok (Al, Au)) (p_Ax_l s, p_Ax_u s) ;;
  '(_, s) <- p_setupAuxiliaryQPbounds None None false (set_p_Ax_u Au (set_p_Ax_l Al s)) ;;
  Ok s.

(** SQProblem.cpp:327-502.  The object's own working sets are passed to
    setupAuxiliaryQPbounds, which does not read them without relaxation. *)
Definition sq_setupNewAuxiliaryQP (H : option (symmat N)) (A : option (amat N)) (lbn ubn lbAn ubAn : option arr) (s : qp)
  : res (returnValue * qp) :=
  if sq_refuses s then Ok (RET_UPDATEMATRICES_FAILED_AS_QP_NOT_SOLVED, s) else
  let s := up_b (set_q_status QPS_PREPARINGAUXILIARYQP) s in
  let go (s : qp) : res (returnValue * qp) :=
    '(r, s) <- sq_newH H s ;;
    if negb (r =r? SUCCESSFUL_RETURN) then Ok (r, s) else
    s <- p_setupAuxiliaryQPgradient s ;;
    let done (s : qp) : res (returnValue * qp) := Ok (SUCCESSFUL_RETURN, up_b (set_q_status QPS_AUXILIARYQPSOLVED) s) in
    '(r, rc, oB, oC, s) <- sq_attempt lbn ubn lbAn ubAn (p_bounds s) (p_cons s) s ;;
    if negb (r =r? SUCCESSFUL_RETURN) then Ok (r, s) else
    if rc =r? SUCCESSFUL_RETURN then done s else
    oB <- sq_allActive (o_initialStatusBounds (p_opts s)) (pV s) oB ;;
    '(r, rc, oB, oC, s) <- sq_attempt lbn ubn lbAn ubAn oB oC s ;;
    if negb (r =r? SUCCESSFUL_RETURN) then Ok (r, s) else
    s <- sq_adjust s ;; done s in
  if 0 <? pC s then
    match A with
    | None => Ok (RET_INVALID_ARGUMENTS, s)
    | Some M => s <- sq_newA M s ;; go s
    end
  else go s.

(** SQProblem.cpp:508-545; only the flags that say who owns the matrices are left *)
Definition sq_setupNewAuxiliaryQP_arr (H A : option arr) (lbn ubn lbAn ubAn : option arr) (s : qp) : res (returnValue * qp) :=
  let n := pV s in let m := pC s in
  match A with
  | None => if 0 <? m then Ok (RET_INVALID_ARGUMENTS, s) else
      '(r, s) <- sq_setupNewAuxiliaryQP (option_map (fun h => SDense (mkDense n n n h)) H) None lbn ubn lbAn ubAn s ;;
      Ok (r, set_p_freeA true (match H with Some _ => up_b (set_q_freeH true) s | None => s end))
  | Some a =>
      '(r, s) <- sq_setupNewAuxiliaryQP (option_map (fun h => SDense (mkDense n n n h)) H) (Some (ADense (mkDense m n n a))) lbn ubn lbAn ubAn s ;;
      Ok (r, set_p_freeA true (match H with Some _ => up_b (set_q_freeH true) s | None => s end))
  end.

(** SQProblem.cpp:94-136 *)
Definition sq_hotstart (fuel : nat) (H : option (symmat N)) (gn : arr) (A : option (amat N)) (lbn ubn lbAn ubAn : option arr)
    (nWSR : Z) (gB gC : option subjectTo) (s : qp) : res (returnValue * Z * qp) :=
  if sq_refuses s then Ok (RET_HOTSTART_FAILED_AS_QP_NOT_INITIALISED, nWSR, s) else
  '(r, s) <- sq_setupNewAuxiliaryQP H A lbn ubn lbAn ubAn s ;;
  if negb (r =r? SUCCESSFUL_RETURN) then Ok (RET_SETUP_AUXILIARYQP_FAILED, nWSR, s) else
  p_hotstart junk cpu fuel gn lbn ubn lbAn ubAn nWSR gB gC s.

(** SQProblem.cpp:142-184 *)
Definition sq_hotstart_arr (fuel : nat) (H : option arr) (gn : arr) (A : option arr) (lbn ubn lbAn ubAn : option arr)
    (nWSR : Z) (gB gC : option subjectTo) (s : qp) : res (returnValue * Z * qp) :=
  if sq_refuses s then Ok (RET_HOTSTART_FAILED_AS_QP_NOT_INITIALISED, nWSR, s) else
  '(r, s) <- sq_setupNewAuxiliaryQP_arr H A lbn ubn lbAn ubAn s ;;
  if negb (r =r? SUCCESSFUL_RETURN) then Ok (RET_SETUP_AUXILIARYQP_FAILED, nWSR, s) else
  p_hotstart junk cpu fuel gn lbn ubn lbAn ubAn nWSR gB gC s.
End QP6.
