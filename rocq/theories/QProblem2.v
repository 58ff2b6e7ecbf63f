(** QProblem, part 2: factorisation of the projected Hessian, step direction,
    linear independence of the working set, curvature test, dropping of
    infeasible constraints, and the complete changes of the working set. *)
From Verif Require Import Base Types Num Options Indexlist SubjectTo Flipper Matrices LinAlg QProblemB QProblem.
Local Open Scope Z_scope.

Section QProblem2.
Context {N : Num}.
Notation arr := (list N).
Notation qpb := (qpb N).
Notation qp := (qp N).
Variable junk : Z -> arr.

(** ** Projected Hessian *)
(** SymmetricMatrix::bilinear; the return value is not looked at *)
Definition m_bilinear (M : symmat N) (icols : indexlist) (xN : Z) (x : arr) (xLD : Z) (y : arr) (yLD : Z) : res arr :=
  match M with
  | SDense A => d_bilinear A icols xN x xLD y yLD
  | SSparse A => '(_, y) <- s_bilinear A icols xN x xLD y yLD ;; Ok y
  end.

(** QProblemB.cpp:2038-2061; ir has n+1 entries as well.  The array of diagonal
    positions is allocated by createDiagInfo. *)
Definition createDiagSparseMat (n : Z) (d : N) : res (symmat N) :=
  let idx := map Z.of_nat (seq 0 (Z.to_nat (n + 1))) in
  M <- s_createDiagInfo (mkSparse n n idx idx None (repeat d (Z.to_nat n))) (repeat 0 (Z.to_nat n)) ;;
  Ok (SSparse M).

(** QProblem.cpp:2036-2130 *)
Definition computeProjectedCholesky (s : qp) : res (returnValue * qp) :=
  let n := pV s in
  let nz := pZ s in
  if pFX s + pAC s =? 0 then '(r, b) <- computeCholesky (p_b s) ;; Ok (r, set_p_b b s) else
  R <- for_up 0 (n * n) (fun i R => wr R i n0) (q_R (p_b s)) ;;
  let setR R (s : qp) := up_b (set_q_R R) s in
  if nz =? 0 then Ok (SUCCESSFUL_RETURN, setR R s) else
  c <- match q_htype (p_b s) with
       | HST_ZERO =>
           if usingReg (p_b s) then
             M <- createDiagSparseMat n (q_regVal (p_b s)) ;;
             R <- m_bilinear M (p_free s) nz (p_Q s) n R n ;; Ok (Next (p_Q s, R))
           else if 0 <? nz then Ok (Brk RET_UNKNOWN_BUG) else Ok (Next (p_Q s, R))
       | HST_IDENTITY =>
           M <- createDiagSparseMat n n1 ;;
           R <- m_bilinear M (p_free s) nz (p_Q s) n R n ;; Ok (Next (p_Q s, R))
       | _ =>
           if pAC s =? 0 then
             Q <- for_up 0 nz (fun j Q =>
                    Q <- for_up 0 n (fun i Q => wr Q (i + n * j) n0) Q ;;
                    f <- rd (p_FR s) j ;; wr Q (f + n * j) n1) (p_Q s) ;;
             M <- q_theH (p_b s) ;;
             R <- for_up 0 (pFR s) (fun j R => c <- rd (p_FR s) j ;; at_off R (j * n) (m_getCol M c (p_free s) n1)) R ;;
             Ok (Next (Q, R))
           else
             M <- q_theH (p_b s) ;;
             R <- m_bilinear M (p_free s) nz (p_Q s) n R n ;; Ok (Next (p_Q s, R))
       end ;;
  match c with
  | Brk r => Ok (r, setR R s)
  | Next (Q, R) =>
      let s := set_p_Q Q s in
      '(info, R) <- dpotrf nz R n ;;
      if 0 <? info then
        r0 <- rd R 0 ;;
        let o := p_opts s in
        let o := if r0 <' n0 then
                   set_o_epsRegularisation (getMin (-' r0 +' o_epsRegularisation o) (nsqrt (nabs (o_epsRegularisation o)))) o
                 else o in
        Ok (RET_HESSIAN_NOT_SPD, up_b (fun b => set_q_htype HST_SEMIDEF (set_q_opts o (set_q_R R b))) s)
      else
        R <- for_up 0 (nz - 1) (fun i R => wr R (i + 1 + n * i) n0) R ;;
        Ok (SUCCESSFUL_RETURN, setR R s)
  end.

(** QProblem.cpp:2135-2163 *)
Definition p_setupInitialCholesky (s : qp) : res (returnValue * qp) :=
  fv <- nFV (p_b s) ;;
  let reg (s : qp) : res (returnValue * qp) := '(r, b) <- regulariseHessian (p_b s) ;; Ok (r, set_p_b b s) in
  '(r, s) <- (if negb (pV s =? pFR s - fv) && o_enableRegularisation (p_opts s) then reg s else Ok (SUCCESSFUL_RETURN, s)) ;;
  if negb (r =r? SUCCESSFUL_RETURN) then Ok (RET_INIT_FAILED_REGULARISATION, s) else
  '(rc, s) <- computeProjectedCholesky s ;;
  let finish (rc : returnValue) (s : qp) : res (returnValue * qp) :=
    if negb (rc =r? SUCCESSFUL_RETURN) then Ok (RET_INIT_FAILED_CHOLESKY, s)
    else Ok (SUCCESSFUL_RETURN, up_b (set_q_haveChol true) s) in
  if rc =r? RET_HESSIAN_NOT_SPD then
    '(r, s) <- reg s ;;
    if negb (r =r? SUCCESSFUL_RETURN) then Ok (RET_INIT_FAILED_REGULARISATION, s) else
    '(rc, s) <- computeProjectedCholesky s ;; finish rc s
  else finish rc s.

(** ** Step direction (QProblem.cpp:4637-4972) *)
(** delta_g, delta_lbA, delta_ubA, delta_lb, delta_ub *)
Record pshift := mkS { sh_g : arr; sh_lbA : arr; sh_ubA : arr; sh_lb : arr; sh_ub : arr }.
(** delta_xFX, delta_xFR, delta_yAC, delta_yFX *)
Record pstep := mkP { sp_xFX : arr; sp_xFR : arr; sp_yAC : arr; sp_yFX : arr }.

(** 4660-4678 *)
Definition pd_xFX (s : qp) (d : pshift) (bBz : bool) (xFX : arr) : res arr :=
  for_up 0 (pFX s) (fun i a =>
    if bBz then wr a i n0 else
    ii <- rd (p_FX s) i ;;
    v <- st_getStatus (p_bounds s) ii ;;
    w <- (if is_sts v ST_LOWER then rd (sh_lb d) ii else rd (sh_ub d) ii) ;;
    wr a i w) xFX.
(** tempA := delta_g on the free variables (4683-4688, 4863-4867) *)
Definition pd_gFR (s : qp) (d : pshift) (a : arr) : res arr :=
  for_up 0 (pFR s) (fun i a => ii <- rd (p_FR s) i ;; v <- rd (sh_g d) ii ;; wr a i v) a.
(** tempB := delta_lbA or delta_ubA on the active constraints (4691-4706, 4896-4911) *)
Definition pd_bAC (s : qp) (d : pshift) (bCz : bool) (a : arr) : res arr :=
  for_up 0 (pAC s) (fun i a =>
    if bCz then wr a i n0 else
    ii <- rd (p_AC s) i ;;
    v <- st_getStatus (p_cons s) ii ;;
    w <- (if is_sts v ST_LOWER then rd (sh_lbA d) ii else rd (sh_ubA d) ii) ;;
    wr a i w) a.

(** acc[i] -= QQ(jj,i)*a[j] for all free j and i < nZ (4757-4762, 4789-4794) *)
Definition pd_negZt (s : qp) (a acc : arr) : res arr :=
  for_up 0 (pFR s) (fun j acc =>
    jj <- rd (p_FR s) j ;;
    for_up 0 (pZ s) (fun i acc => v <- rd acc i ;; q <- rd (p_Q s) (jj + pV s * i) ;; t <- rd a j ;; wr acc i (v -' q *' t)) acc) acc.
(** acc[j] += QQ(ii,nZ+j)*a[i] (4842-4849, 4860-4868) *)
Definition pd_Yt (s : qp) (a acc : arr) : res arr :=
  for_up 0 (pAC s) (fun j acc =>
    for_up 0 (pFR s) (fun i acc =>
      ii <- rd (p_FR s) i ;; v <- rd acc j ;; q <- rd (p_Q s) (ii + pV s * (pZ s + j)) ;; t <- rd a i ;; wr acc j (v +' q *' t)) acc) acc.

(** 4714-4742: delta_xFRy and its contribution to delta_xFR_TMP *)
Definition pd_range (s : qp) (bCz bBz : bool) (r : Z) (xFX tempB tmp dxy : arr) : res (ctl (arr * arr * arr) (arr * arr * arr)) :=
  tmp <- for_up 0 (pFR s) (fun i a => wr a i n0) tmp ;;
  if pAC s <=? 0 then Ok (Next (tempB, tmp, dxy)) else
  if bCz && bBz then dxy <- for_up 0 (pAC s) (fun i a => wr a i n0) dxy ;; Ok (Next (tempB, tmp, dxy)) else
  tempB <- (if negb bBz && (r =? 0) then
              A <- p_theA s ;; a_times_idx A (p_active s) (p_fixed s) 1 nm1 xFX (pFX s) n1 tempB (pAC s)
            else Ok tempB) ;;
  '(rv, dxy) <- backsolveT s tempB false dxy ;;
  if negb (rv =r? SUCCESSFUL_RETURN) then Ok (Brk (tempB, tmp, dxy)) else
  tmp <- for_up 0 (pFR s) (fun i tmp =>
           ii <- rd (p_FR s) i ;;
           for_up 0 (pAC s) (fun j tmp =>
             v <- rd tmp i ;; q <- rd (p_Q s) (ii + pV s * (pZ s + j)) ;; t <- rd dxy j ;; wr tmp i (v +' q *' t)) tmp) tmp ;;
  Ok (Next (tempB, tmp, dxy)).

(** 4745-4806: delta_xFRz *)
Definition pd_null (s : qp) (bCz bBz : bool) (r : Z) (xFX tempA tmp dxz : arr) : res (ctl (arr * arr) (returnValue * arr * arr)) :=
  dxz <- for_up 0 (pZ s) (fun i a => wr a i n0) dxz ;;
  if negb (plainH (p_b s)) then
    dxz <- pd_negZt s tempA dxz ;;
    if is_hst (q_htype (p_b s)) HST_ZERO then
      if usingReg (p_b s) then
        dxz <- for_up 0 (pZ s) (fun i a => v <- rd a i ;; wr a i (v /' q_regVal (p_b s))) dxz ;; Ok (Next (tempA, dxz))
      else if 0 <? pZ s then Ok (Brk (RET_UNKNOWN_BUG, tempA, dxz)) else Ok (Next (tempA, dxz))
    else Ok (Next (tempA, dxz))
  else
    M <- q_theH (p_b s) ;;
    tempA <- (if negb bBz && (r =? 0) then m_times_idx M (p_free s) (p_fixed s) 1 n1 xFX (pFX s) n1 tempA (pFR s) else Ok tempA) ;;
    tempA <- (if (0 <? pAC s) && negb (bCz && bBz) then m_times_idx M (p_free s) (p_free s) 1 n1 tmp (pFR s) n1 tempA (pFR s) else Ok tempA) ;;
    if 0 <? pZ s then
      dxz <- pd_negZt s tempA dxz ;;
      '(rv, dxz) <- p_backsolveR s None true false dxz ;;
      if negb (rv =r? SUCCESSFUL_RETURN) then Ok (Brk (RET_STEPDIRECTION_FAILED_CHOLESKY, tempA, dxz)) else
      '(rv, dxz) <- p_backsolveR s None false false dxz ;;
      if negb (rv =r? SUCCESSFUL_RETURN) then Ok (Brk (RET_STEPDIRECTION_FAILED_CHOLESKY, tempA, dxz)) else
      Ok (Next (tempA, dxz))
    else Ok (Next (tempA, dxz)).

(** 4808-4821: Z * delta_xFRz, added to delta_xFR_TMP *)
Definition pd_addZ (s : qp) (dxz zfr tmp : arr) : res (arr * arr) :=
  for_up 0 (pFR s) (fun i '(zfr, tmp) =>
    zfr <- wr zfr i n0 ;;
    ii <- rd (p_FR s) i ;;
    zfr <- for_up 0 (pZ s) (fun j zfr => v <- rd zfr i ;; q <- rd (p_Q s) (ii + pV s * j) ;; t <- rd dxz j ;; wr zfr i (v +' q *' t)) zfr ;;
    u <- rd tmp i ;; v <- rd zfr i ;; tmp <- wr tmp i (u +' v) ;; Ok (zfr, tmp)) (zfr, tmp).

(** 4824-4874: delta_yAC_TMP *)
Definition pd_mult (s : qp) (dxy zfr tempA tempB dyAC : arr) : res (returnValue * arr * arr * arr) :=
  '(tempA, tempB) <- (if negb (plainH (p_b s)) then
      tempB <- for_up 0 (pAC s) (fun j a =>
                 if is_hst (q_htype (p_b s)) HST_IDENTITY then v <- rd dxy j ;; wr a j v
                 else if usingReg (p_b s) then v <- rd dxy j ;; wr a j (q_regVal (p_b s) *' v) else wr a j n0) tempB ;;
      tempB <- pd_Yt s tempA tempB ;; Ok (tempA, tempB)
    else
      M <- q_theH (p_b s) ;;
      tempA <- (if 0 <? pZ s then m_times_idx M (p_free s) (p_free s) 1 n1 zfr (pFR s) n1 tempA (pFR s) else Ok tempA) ;;
      tempB <- for_up 0 (pAC s) (fun i a => wr a i n0) tempB ;;
      tempB <- pd_Yt s tempA tempB ;; Ok (tempA, tempB)) ;;
  '(rv, dyAC) <- backsolveT s tempB true dyAC ;;
  Ok (rv, tempA, tempB, dyAC).

(** 4883-4925: residuals, and whether they are small enough *)
Definition pd_residual (s : qp) (d : pshift) (bCz : bool) (xFX xFR yAC tempA tempB : arr) : res (arr * arr * bool) :=
  tempA <- pd_gFR s d tempA ;;
  tempA <- match q_htype (p_b s) with
           | HST_ZERO =>
               if usingReg (p_b s) then for_up 0 (pFR s) (fun i a => u <- rd a i ;; v <- rd xFR i ;; wr a i (u +' q_regVal (p_b s) *' v)) tempA
               else Ok tempA
           | HST_IDENTITY => for_up 0 (pFR s) (fun i a => u <- rd a i ;; v <- rd xFR i ;; wr a i (u +' v)) tempA
           | _ =>
               M <- q_theH (p_b s) ;;
               a <- m_times_idx M (p_free s) (p_free s) 1 n1 xFR (pFR s) n1 tempA (pFR s) ;;
               m_times_idx M (p_free s) (p_fixed s) 1 n1 xFX (pFX s) n1 a (pFR s)
           end ;;
  A <- p_theA s ;;
  tempA <- a_transTimes_idx A (p_active s) (p_free s) 1 nm1 yAC (pAC s) n1 tempA (pFR s) ;;
  rnrm <- maxAbs (pFR s) tempA n0 ;;
  tempB <- pd_bAC s d bCz tempB ;;
  tempB <- a_times_idx A (p_active s) (p_free s) 1 nm1 xFR (pFR s) n1 tempB (pAC s) ;;
  tempB <- a_times_idx A (p_active s) (p_fixed s) 1 nm1 xFX (pFX s) n1 tempB (pAC s) ;;
  rnrm <- maxAbs (pAC s) tempB rnrm ;;
  Ok (tempA, tempB, rnrm <' o_epsIterRef (p_opts s)).

(** the members used as scratch space *)
Record pscr := mkC { c_A : arr; c_B : arr; c_tmp : arr; c_dxy : arr; c_dxz : arr; c_zfr : arr; c_dyAC : arr }.
Definition scr_of (s : qp) : pscr := mkC (p_tempA s) (p_tempB s) (q_tmp (p_b s)) (p_dxy s) (p_dxz s) (p_ZFR s) (p_dyAC s).
Definition scr_to (c : pscr) (s : qp) : qp :=
  set_p_tempA (c_A c) (set_p_tempB (c_B c) (set_p_dxy (c_dxy c) (set_p_dxz (c_dxz c) (set_p_ZFR (c_zfr c) (set_p_dyAC (c_dyAC c) (up_b (set_q_tmp (c_tmp c)) s)))))).

(** one round of the refinement loop (4709-4930) *)
Definition pd_round (s : qp) (d : pshift) (bCz bBz : bool) (xFX : arr) (r : Z) (st : pscr * arr * arr)
  : res (ctl (pscr * arr * arr) (returnValue * pscr * arr * arr)) :=
  let '(c, xFR, yAC) := st in
  let fail rv c := Ok (Brk (rv, c, xFR, yAC)) in
  u <- (if 0 <? pFR s then
          p <- pd_range s bCz bBz r xFX (c_B c) (c_tmp c) (c_dxy c) ;;
          match p with
          | Brk (B, tmp, dxy) => Ok (Brk (RET_STEPDIRECTION_FAILED_TQ, mkC (c_A c) B tmp dxy (c_dxz c) (c_zfr c) (c_dyAC c)))
          | Next (B, tmp, dxy) =>
              q <- pd_null s bCz bBz r xFX (c_A c) tmp (c_dxz c) ;;
              match q with
              | Brk (rv, A, dxz) => Ok (Brk (rv, mkC A B tmp dxy dxz (c_zfr c) (c_dyAC c)))
              | Next (A, dxz) =>
                  '(zfr, tmp) <- (if 0 <? pZ s then pd_addZ s dxz (c_zfr c) tmp else Ok (c_zfr c, tmp)) ;;
                  Ok (Next (mkC A B tmp dxy dxz zfr (c_dyAC c)))
              end
          end
        else Ok (Next c)) ;;
  match u with
  | Brk (rv, c) => fail rv c
  | Next c =>
      '(rv, c) <- (if 0 <? pAC s then
          '(rv, A, B, dyAC) <- pd_mult s (c_dxy c) (c_zfr c) (c_A c) (c_B c) (c_dyAC c) ;;
          Ok (rv, mkC A B (c_tmp c) (c_dxy c) (c_dxz c) (c_zfr c) dyAC)
        else Ok (SUCCESSFUL_RETURN, c)) ;;
      if negb (rv =r? SUCCESSFUL_RETURN) then fail RET_STEPDIRECTION_FAILED_TQ c else
      xFR <- for_up 0 (pFR s) (fun i a => u <- rd a i ;; v <- rd (c_tmp c) i ;; wr a i (u +' v)) xFR ;;
      yAC <- for_up 0 (pAC s) (fun i a => u <- rd a i ;; v <- rd (c_dyAC c) i ;; wr a i (u +' v)) yAC ;;
      if negb (0 <? o_numRefinementSteps (p_opts s)) then Ok (Next (c, xFR, yAC)) else
      '(A, B, small) <- pd_residual s d bCz xFX xFR yAC (c_A c) (c_B c) ;;
      let c := mkC A B (c_tmp c) (c_dxy c) (c_dxz c) (c_zfr c) (c_dyAC c) in
      if (small : bool) then Ok (Brk (SUCCESSFUL_RETURN, c, xFR, yAC)) else Ok (Next (c, xFR, yAC))
  end.

(** 4934-4969 *)
Definition pd_yFX (s : qp) (d : pshift) (xFX xFR yAC yFX : arr) : res arr :=
  if pFX s <=? 0 then Ok yFX else
  a <- for_up 0 (pFX s) (fun i a => ii <- rd (p_FX s) i ;; v <- rd (sh_g d) ii ;; wr a i v) yFX ;;
  A <- p_theA s ;;
  a <- a_transTimes_idx A (p_active s) (p_fixed s) 1 nm1 yAC (pAC s) n1 a (pFX s) ;;
  match q_htype (p_b s) with
  | HST_ZERO =>
      if usingReg (p_b s) then for_up 0 (pFX s) (fun i a => u <- rd a i ;; v <- rd xFX i ;; wr a i (u +' q_regVal (p_b s) *' v)) a
      else Ok a
  | HST_IDENTITY => for_up 0 (pFX s) (fun i a => u <- rd a i ;; v <- rd xFX i ;; wr a i (u +' n1 *' v)) a
  | _ =>
      M <- q_theH (p_b s) ;;
      a <- m_times_idx M (p_fixed s) (p_free s) 1 n1 xFR (pFR s) n1 a (pFX s) ;;
      m_times_idx M (p_fixed s) (p_fixed s) 1 n1 xFX (pFX s) n1 a (pFX s)
  end.

Definition p_stepDirection (d : pshift) (bCz bBz : bool) (p : pstep) (s : qp) : res (returnValue * pstep * qp) :=
  xFX <- pd_xFX s d bBz (sp_xFX p) ;;
  A <- pd_gFR s d (p_tempA s) ;;
  xFR <- for_up 0 (pFR s) (fun i a => wr a i n0) (sp_xFR p) ;;
  yAC <- for_up 0 (pAC s) (fun i a => wr a i n0) (sp_yAC p) ;;
  B <- pd_bAC s d bCz (p_tempB s) ;;
  c <- forb_up 0 (o_numRefinementSteps (p_opts s) + 1) (pd_round s d bCz bBz xFX)
         (mkC A B (q_tmp (p_b s)) (p_dxy s) (p_dxz s) (p_ZFR s) (p_dyAC s), xFR, yAC) ;;
  let '(rv, c, xFR, yAC) := match c with Next (c, xFR, yAC) => (SUCCESSFUL_RETURN, c, xFR, yAC) | Brk e => e end in
  let s := scr_to c s in
  if negb (rv =r? SUCCESSFUL_RETURN) then Ok (rv, mkP xFX xFR yAC (sp_yFX p), s) else
  yFX <- pd_yFX s d xFX xFR yAC (sp_yFX p) ;;
  Ok (SUCCESSFUL_RETURN, mkP xFX xFR yAC yFX, s).

(** ** Tests for linear independence *)
(** The expensive test shared by QProblem.cpp:2999-3070 and 3497-3563, for the
    gradient step [dg].  The five vectors are allocated here. *)
Definition fullLI (dg : arr) (s : qp) : res (returnValue * qp) :=
  let dim := if pC s >? pV s then pC s else pV s in
  nul <- for_up 0 dim (fun i a => wr a i n0) (junk dim) ;;
  '(rv, p, s) <- p_stepDirection (mkS dg nul nul nul nul) false false
                   (mkP (junk (pFX s)) (junk (pFR s)) (junk (pAC s)) (junk (pFX s))) s ;;
  weight <- maxAbs (pAC s) (sp_yAC p) n0 ;;
  weight <- maxAbs (pFX s) (sp_yFX p) weight ;;
  z <- maxAbs (pFX s) (sp_xFX p) n0 ;;
  z <- maxAbs (pFR s) (sp_xFR p) z ;;
  Ok (if z >' o_epsLITests (p_opts s) *' weight then RET_LINEARLY_INDEPENDENT
      else if rv =r? SUCCESSFUL_RETURN then RET_LINEARLY_DEPENDENT else rv, s).

(** QProblem.cpp:2982-3111 *)
Definition addConstraint_checkLI (number : Z) (s : qp) : res (returnValue * qp) :=
  A <- p_theA s ;;
  if o_enableFullLITests (p_opts s) then
    dg <- a_getRow A number None n1 (junk (pV s)) ;;
    fullLI dg s
  else
    row <- a_getRow A number (Some (p_free s)) n1 (junk (pFR s)) ;;
    l2 <- for_up 0 (pFR s) (fun i l2 => a <- rd row i ;; Ok (l2 +' a *' a)) n0 ;;
    c <- forb_up 0 (pZ s) (fun j _ =>
           sum <- for_up 0 (pFR s) (fun i sum =>
                    ii <- rd (p_FR s) i ;; a <- rd row i ;; q <- rd (p_Q s) (ii + pV s * j) ;; Ok (sum +' a *' q)) n0 ;;
           if nabs sum >' o_epsLITests (p_opts s) *' l2 then Ok (Brk tt) else Ok (Next tt)) tt ;;
    Ok (match c with Brk _ => RET_LINEARLY_INDEPENDENT | Next _ => RET_LINEARLY_DEPENDENT end, s).

(** QProblem.cpp:3487-3589 *)
Definition addBound_checkLI (number : Z) (s : qp) : res (returnValue * qp) :=
  if o_enableFullLITests (p_opts s) then
    dg <- for_up 0 (pV s) (fun i a => wr a i n0) (junk (pV s)) ;;
    dg <- wr dg number n1 ;;
    fullLI dg s
  else
    c <- forb_up 0 (pZ s) (fun i _ =>
           q <- rd (p_Q s) (number + pV s * i) ;;
           if nabs q >' o_epsLITests (p_opts s) then Ok (Brk tt) else Ok (Next tt)) tt ;;
    Ok (match c with Brk _ => RET_LINEARLY_INDEPENDENT | Next _ => RET_LINEARLY_DEPENDENT end, s).

(** ** Resolving linear dependence *)
Definition infeasStatus (v : SubjectToStatus) : SubjectToStatus := if is_sts v ST_LOWER then ST_INFEASIBLE_LOWER else ST_INFEASIBLE_UPPER.

(** the first i < n with test i: the search loops of dropInfeasibles *)
Definition search (n : Z) (test : Z -> res bool) : res (option Z) :=
  c <- forb_up 0 n (fun i _ => b <- test i ;; if (b : bool) then Ok (Brk i) else Ok (Next tt)) tt ;;
  Ok (match c with Brk i => Some i | Next _ => None end).

(** which constraint or bound to drop (QProblem.cpp:6282-6324): number, isBound;
    the type is that of constraint i, not of constraint AC_idx[i] *)
Definition dropCandidate (isBound : bool) (xiB xiC : arr) (s : qp) : res (option (Z * bool)) :=
  let o := p_opts s in
  let prio := if isBound then o_dropBoundPriority o else o_dropIneqConPriority o in
  let con ty := search (pAC s) (fun i => t <- st_getType (p_cons s) i ;; if is_stt t ty then v <- rd xiC i ;; Ok (nabs v >' o_epsDen o) else Ok false) in
  '(c, prio) <- (if o_dropEqConPriority o <=? prio then
                   e <- con ST_EQUALITY ;;
                   match e with Some i => k <- rd (p_AC s) i ;; Ok (Some (k, false), o_dropEqConPriority o) | None => Ok (None, prio) end
                 else Ok (None, prio)) ;;
  '(c, prio) <- (if o_dropIneqConPriority o <=? prio then
                   e <- con ST_BOUNDED ;;
                   match e with Some i => k <- rd (p_AC s) i ;; Ok (Some (k, false), o_dropIneqConPriority o) | None => Ok (c, prio) end
                 else Ok (c, prio)) ;;
  if o_dropBoundPriority o <=? prio then
    e <- search (pFX s) (fun i => v <- rd xiB i ;; Ok (nabs v >' o_epsDen o)) ;;
    match e with Some i => k <- rd (p_FX s) i ;; Ok (Some (k, true)) | None => Ok c end
  else Ok c.

(** QProblem.cpp:6263-6366 *)
Definition dropInfeasibles (number : Z) (v : SubjectToStatus) (isBound : bool) (xiB xiC : arr) (s : qp) : res (returnValue * qp) :=
  c <- dropCandidate isBound xiB xiC s ;;
  match c with
  | Some (k, true) =>
      w <- st_getStatus (p_bounds s) k ;;
      '(_, s) <- removeBound0 junk k true false s ;;
      '(_, b) <- st_setStatus (p_bounds s) k (infeasStatus w) ;;
      Ok (SUCCESSFUL_RETURN, up_b (set_q_bounds b) s)
  | Some (k, false) =>
      w <- st_getStatus (p_cons s) k ;;
      '(_, s) <- removeConstraint0 junk k true false s ;;
      '(_, c) <- st_setStatus (p_cons s) k (infeasStatus w) ;;
      Ok (SUCCESSFUL_RETURN, set_p_cons c s)
  | None =>
      if isBound then
        '(_, b) <- st_setStatus (p_bounds s) number (infeasStatus v) ;; Ok (RET_ENSURELI_DROPPED, up_b (set_q_bounds b) s)
      else
        '(_, c) <- st_setStatus (p_cons s) number (infeasStatus v) ;; Ok (RET_ENSURELI_DROPPED, set_p_cons c s)
  end.

(** QProblem.cpp:3183-3301 and 3670-3772: which multiplier hits zero first, and the
    exchange.  [slot] is the position of the new multiplier in y. *)
Definition resolveLI (number slot : Z) (v : SubjectToStatus) (isBound : bool) (xiB xiC : arr) (s : qp) : res (returnValue * qp) :=
  let o := p_opts s in
  let n := pV s in
  num <- for_up 0 (pAC s) (fun i a => ii <- rd (p_AC s) i ;; w <- rd (q_y (p_b s)) (n + ii) ;; wr a i w) (junk n) ;;
  '(ymin, kC) <- performRatioTest (pAC s) (p_AC s) (p_cons s) num xiC (o_epsNum o) (o_epsDen o) (o_maxDualJump o) ;;
  num <- for_up 0 (pFX s) (fun i a => ii <- rd (p_FX s) i ;; w <- rd (q_y (p_b s)) ii ;; wr a i w) num ;;
  '(ymin, kB) <- performRatioTest (pFX s) (p_FX s) (p_bounds s) num xiB (o_epsNum o) (o_epsDen o) ymin ;;
  if (0 <=? kB) || (0 <=? kC) then
    y <- for_up 0 (pAC s) (fun i y => ii <- rd (p_AC s) i ;; w <- rd y (n + ii) ;; xi <- rd xiC i ;; wr y (n + ii) (w -' ymin *' xi)) (q_y (p_b s)) ;;
    y <- for_up 0 (pFX s) (fun i y => ii <- rd (p_FX s) i ;; w <- rd y ii ;; xi <- rd xiB i ;; wr y ii (w -' ymin *' xi)) y ;;
    y <- wr y slot (if is_sts v ST_LOWER then ymin else -' ymin) ;;
    let s := up_b (set_q_y y) s in
    if 0 <=? kB then
      '(r, s) <- removeBound0 junk kB true false s ;;
      if negb (r =r? SUCCESSFUL_RETURN) then Ok (RET_REMOVE_FROM_ACTIVESET_FAILED, s) else
      y <- wr (q_y (p_b s)) kB n0 ;; Ok (SUCCESSFUL_RETURN, up_b (set_q_y y) s)
    else
      '(r, s) <- removeConstraint0 junk kC true false s ;;
      if negb (r =r? SUCCESSFUL_RETURN) then Ok (RET_REMOVE_FROM_ACTIVESET_FAILED, s) else
      y <- wr (q_y (p_b s)) (n + kC) n0 ;; Ok (SUCCESSFUL_RETURN, up_b (set_q_y y) s)
  else if o_enableDropInfeasibles o then dropInfeasibles number v isBound xiB xiC s
  else Ok (RET_ENSURELI_FAILED_NOINDEX, up_b (set_q_infeasible true) s).

(** QProblem.cpp:3117-3302 *)
Definition addConstraint_ensureLI (number : Z) (v : SubjectToStatus) (s : qp) : res (returnValue * qp) :=
  '(li, s) <- addConstraint_checkLI number s ;;
  if li =r? RET_INDEXLIST_CORRUPTED then Ok (RET_ENSURELI_FAILED, s) else
  if li =r? RET_LINEARLY_INDEPENDENT then Ok (SUCCESSFUL_RETURN, s) else
  A <- p_theA s ;;
  let sg := if is_sts v ST_LOWER then n1 else nm1 in
  row <- a_getRow A number (Some (p_free s)) sg (junk (pFR s)) ;;
  '(r, xiC) <- (if 0 <? pAC s then
      t <- for_up 0 (pAC s) (fun i a =>
             a <- wr a i n0 ;;
             for_up 0 (pFR s) (fun j a =>
               jj <- rd (p_FR s) j ;; w <- rd a i ;; q <- rd (p_Q s) (jj + pV s * (pZ s + i)) ;; x <- rd row j ;;
               wr a i (w +' q *' x)) a) (junk (pAC s)) ;;
      backsolveT s t true (junk (pAC s))
    else Ok (SUCCESSFUL_RETURN, junk (pAC s))) ;;
  if negb (r =r? SUCCESSFUL_RETURN) then Ok (RET_ENSURELI_FAILED_TQ, s) else
  xiB <- a_getRow A number (Some (p_fixed s)) sg (junk (pFX s)) ;;
  xiB <- a_transTimes_idx A (p_active s) (p_fixed s) 1 nm1 xiC (pAC s) n1 xiB (pFX s) ;;
  resolveLI number (pV s + number) v false xiB xiC s.

(** QProblem.cpp:3596-3774 *)
Definition addBound_ensureLI (number : Z) (v : SubjectToStatus) (s : qp) : res (returnValue * qp) :=
  '(li, s) <- addBound_checkLI number s ;;
  if li =r? RET_INDEXLIST_CORRUPTED then Ok (RET_ENSURELI_FAILED, s) else
  if li =r? RET_LINEARLY_INDEPENDENT then Ok (SUCCESSFUL_RETURN, s) else
  '(r, xiC) <- (if 0 <? pAC s then
      t <- for_up 0 (pAC s) (fun i a =>
             q <- rd (p_Q s) (number + pV s * (pZ s + i)) ;; wr a i (if is_sts v ST_LOWER then q else -' q)) (junk (pAC s)) ;;
      backsolveT s t true (junk (pAC s))
    else Ok (SUCCESSFUL_RETURN, junk (pAC s))) ;;
  if negb (r =r? SUCCESSFUL_RETURN) then Ok (RET_ENSURELI_FAILED_TQ, s) else
  A <- p_theA s ;;
  xiB <- a_transTimes_idx A (p_active s) (p_fixed s) 1 nm1 xiC (pAC s) n0 (junk (pFX s)) (pFX s) ;;
  resolveLI number number v true xiB xiC s.

(** QProblem.cpp:2843-2869 and 3328-3354: what the caller makes of it *)
Definition afterLI (r infeas : returnValue) : option returnValue :=
  match r with
  | SUCCESSFUL_RETURN | RET_LI_RESOLVED => None
  | RET_ENSURELI_FAILED_NOINDEX | RET_ENSURELI_FAILED_CYCLING => Some infeas
  | RET_ENSURELI_DROPPED => Some SUCCESSFUL_RETURN
  | _ => Some RET_ENSURELI_FAILED
  end.

(** QProblem.cpp:2819-2973 *)
Definition p_addConstraint (number : Z) (v : SubjectToStatus) (upd ensureLI : bool) (s : qp) : res (returnValue * qp) :=
  c <- addConstraint_check number s ;;
  match c with
  | Some r => Ok (r, s)
  | None =>
      '(r, s) <- (if upd && ensureLI then addConstraint_ensureLI number v s else Ok (SUCCESSFUL_RETURN, s)) ;;
      match afterLI r RET_ADDCONSTRAINT_FAILED_INFEASIBILITY with
      | Some r => Ok (r, s)
      | None => addConstraint_update junk number v upd s
      end
  end.
(** QProblem.cpp:3307-3480 *)
Definition p_addBound (number : Z) (v : SubjectToStatus) (upd ensureLI : bool) (s : qp) : res (returnValue * qp) :=
  c <- addBound_check number s ;;
  match c with
  | Some r => Ok (r, s)
  | None =>
      '(r, s) <- (if upd && ensureLI then addBound_ensureLI number v s else Ok (SUCCESSFUL_RETURN, s)) ;;
      match afterLI r RET_ADDBOUND_FAILED_INFEASIBILITY with
      | Some r => Ok (r, s)
      | None => addBound_update junk number v upd s
      end
  end.

(** ** Curvature test *)
(** QProblem.cpp:4256-4275 *)
Definition plainRatioTest (nIdx : Z) (idx : list Z) (num den : arr) (epsNum epsDen : N) (tb : N * Z) : res (N * Z) :=
  for_up 0 nIdx (fun i '(t, bc) =>
    nu <- rd num i ;;
    if nu >' epsNum then
      de <- rd den i ;;
      if (de >' epsDen) && (t *' de >' nu) then k <- rd idx i ;; Ok (nu /' de, k) else Ok (t, bc)
    else Ok (t, bc)) tb.

(** QProblem.cpp:4278-4510.  The exchange to make later is returned. *)
Definition ensureNonzeroCurvature (isBound : bool) (rem : Z) (s : qp) : res (returnValue * exchange * qp) :=
  let o := p_opts s in
  let n := pV s in let m := pC s in
  let dim := if n <? m then m else n in
  nul <- for_up 0 (if isBound then dim else n) (fun i a => wr a i n0) (junk (if isBound then dim else n)) ;;
  ek <- for_up 0 (if isBound then n else m) (fun i a => wr a i n0) (junk (if isBound then n else m)) ;;
  v <- st_getStatus (if isBound then p_bounds s else p_cons s) rem ;;
  ek <- wr ek rem (if is_sts v ST_LOWER then n1 else nm1) ;;
  '(rv, p, s) <- p_stepDirection (if isBound then mkS nul nul nul ek ek else mkS nul ek ek nul nul) false (negb isBound)
                   (mkP (junk (pFX s)) (junk (pFR s)) (junk (pAC s)) (junk (pFX s))) s ;;
  xi <- maxAbs (pAC s) (sp_yAC p) n0 ;;
  xi <- maxAbs (pFX s) (sp_yFX p) xi ;;
  nS <- maxAbs (pFX s) (sp_xFX p) n0 ;;
  nS <- maxAbs (pFR s) (sp_xFR p) nS ;;
  if xi <' o_epsNZCTests o *' nS then
    let jump := o_maxPrimalJump o in
    let test k idx num den tb := plainRatioTest k idx num den (o_epsNum o) (o_epsDen o) tb in
    w <- for_up 0 (pFR s) (fun i a => ii <- rd (p_FR s) i ;; u <- rd (q_ub (p_b s)) ii ;; x <- rd (q_x (p_b s)) ii ;; wr a i (u -' x))
           (junk (if 1 >? pFR s then 1 else pFR s)) ;;
    uB <- test (pFR s) (p_FR s) w (sp_xFR p) (jump, -1) ;;
    '(w, uB) <- (if isBound && is_sts v ST_LOWER then
                   u <- rd (q_ub (p_b s)) rem ;; x <- rd (q_x (p_b s)) rem ;; w <- wr w 0 (u -' x) ;;
                   uB <- test 1 [rem] w [n1] uB ;; Ok (w, uB)
                 else Ok (w, uB)) ;;
    w <- for_up 0 (pFR s) (fun i a => ii <- rd (p_FR s) i ;; x <- rd (q_x (p_b s)) ii ;; l <- rd (q_lb (p_b s)) ii ;; wr a i (x -' l)) w ;;
    neg <- for_up 0 (pFR s) (fun i a => u <- rd a i ;; wr a i (-' u)) (sp_xFR p) ;;
    lB <- test (pFR s) (p_FR s) w neg (jump, -1) ;;
    '(w, lB) <- (if isBound && is_sts v ST_UPPER then
                   x <- rd (q_x (p_b s)) rem ;; l <- rd (q_lb (p_b s)) rem ;; w <- wr w 0 (x -' l) ;;
                   lB <- test 1 [rem] w [n1] lB ;; Ok (w, lB)
                 else Ok (w, lB)) ;;
    xFR <- for_up 0 (pFR s) (fun i a => u <- rd a i ;; wr a i (-' u)) neg ;;
    A <- p_theA s ;;
    As <- a_times_idx A (p_inactive s) (p_fixed s) 1 n1 (sp_xFX p) (pFX s) n0 (junk (pIAC s)) (pIAC s) ;;
    As <- a_times_idx A (p_inactive s) (p_free s) 1 n1 xFR (pFR s) n1 As (pIAC s) ;;
    ax <- for_up 0 (pIAC s) (fun i a => ii <- rd (p_IAC s) i ;; u <- rd (p_Ax_u s) ii ;; wr a i u) (junk (pIAC s)) ;;
    uC <- test (pIAC s) (p_IAC s) ax As (jump, -1) ;;
    uC <- (if negb isBound && is_sts v ST_LOWER then u <- rd (p_Ax_u s) rem ;; test 1 [rem] [u] [n1] uC else Ok uC) ;;
    ax <- for_up 0 (pIAC s) (fun i a => ii <- rd (p_IAC s) i ;; u <- rd (p_Ax_l s) ii ;; wr a i u) ax ;;
    As <- for_up 0 (pIAC s) (fun i a => u <- rd a i ;; wr a i (-' u)) As ;;
    lC <- test (pIAC s) (p_IAC s) ax As (jump, -1) ;;
    lC <- (if negb isBound && is_sts v ST_UPPER then u <- rd (p_Ax_l s) rem ;; test 1 [rem] [u] [n1] lC else Ok lC) ;;
    let pick '(sg, e) (tb : N * Z) st isB := if fst tb <' sg then (fst tb, Some (isB, snd tb, st)) else (sg, e) in
    let '(sigma, e) := pick (pick (pick (pick (jump, None) uC ST_UPPER false) lC ST_LOWER false) uB ST_UPPER true) lB ST_LOWER true in
    if sigma >=' jump then Ok (RET_HOTSTART_STOPPED_UNBOUNDEDNESS, None, up_b (set_q_unbounded true) s) else
    x <- stepIdx (pFR s) (p_FR s) sigma xFR (q_x (p_b s)) ;;
    x <- stepIdx (pFX s) (p_FX s) sigma (sp_xFX p) x ;;
    Ax <- a_times A 1 n1 x n n0 (p_Ax s) m ;;
    Axu <- for_up 0 m (fun i a => u <- rd (p_ubA s) i ;; t <- rd Ax i ;; wr a i (u -' t)) (p_Ax_u s) ;;
    Axl <- for_up 0 m (fun i a => t <- rd Ax i ;; l <- rd (p_lbA s) i ;; wr a i (t -' l)) (p_Ax_l s) ;;
    Ok (rv, e, set_p_Ax Ax (set_p_Ax_u Axu (set_p_Ax_l Axl (up_b (set_q_x x) s))))
  else Ok (rv, None, s).

(** QProblem.cpp:3782-4012 and 4018-4250 *)
Definition p_removeConstraint (number : Z) (upd allowFlip ensureNZC : bool) (s : qp) : res (returnValue * qp) :=
  c <- removeConstraint_check number s ;;
  match c with
  | inl r => Ok (r, s)
  | inr k =>
      '(r, e, s) <- (if ensureNZC then ensureNonzeroCurvature false number s else Ok (SUCCESSFUL_RETURN, None, s)) ;;
      if negb (r =r? SUCCESSFUL_RETURN) then Ok (r, s) else removeConstraint_update junk number k upd allowFlip e s
  end.
Definition p_removeBound (number : Z) (upd allowFlip ensureNZC : bool) (s : qp) : res (returnValue * qp) :=
  c <- removeBound_check number s ;;
  match c with
  | Some r => Ok (r, s)
  | None =>
      '(r, e, s) <- (if ensureNZC then ensureNonzeroCurvature true number s else Ok (SUCCESSFUL_RETURN, None, s)) ;;
      if negb (r =r? SUCCESSFUL_RETURN) then Ok (r, s) else removeBound_update junk number upd allowFlip e s
  end.
End QProblem2.
