(** Model of src/QProblem.cpp: the auxiliary QP, the homotopy and the user calls.

    The simplifications of QProblemB.v apply.  A guess for the working set is
    [Some] object of the user, or [None] for the member of the object itself
    (hotstart passes &bounds or &constraints for a missing guess): then the
    current value of the member is read each time. *)
From Verif Require Import Base Types Num Options Indexlist SubjectTo Flipper Matrices LinAlg QProblemB QProblem QProblem2 QProblem3 QProblem4.
Local Open Scope Z_scope.

Section QP5.
Context {N : Num}.
Notation arr := (list N).
Notation qpb := (qpb N).
Notation qp := (qp N).
Variable junk : Z -> arr.
Variable cpu : Z -> bool.

Definition in_b {A} (f : qpb -> res A) (s : qp) : res A := f (p_b s).
Definition on_b (f : qpb -> res qpb) (s : qp) : res qp := b <- f (p_b s) ;; Ok (set_p_b b s).
Definition gBounds (g : option subjectTo) (s : qp) : subjectTo := match g with Some b => b | None => p_bounds s end.
Definition gCons (g : option subjectTo) (s : qp) : subjectTo := match g with Some c => c | None => p_cons s end.

(** A->times( rows,0, 1,1.0,x,nV,0.0,y,nC,BT_FALSE ) *)
Definition a_times_rows (M : amat N) (ir : indexlist) (x : arr) (xLD : Z) (y : arr) (yLD : Z) : res arr :=
  match M with
  | ADense A => d_times_idx A ir None 1 n1 x xLD n0 y yLD false
  | ASparse A => s_times_idx A ir None 1 n1 x xLD n0 y yLD false
  | ASprow A => r_times_idx A ir None 1 n1 x xLD n0 y yLD false
  end.

(** ** The auxiliary QP *)
(** QProblem.cpp:2545-2597; always successful.  xOpt and yOpt are not the members x and y. *)
Definition p_setupAuxiliaryQPsolution (xOpt yOpt : option arr) (s : qp) : res qp :=
  let n := pV s in let m := pC s in
  s <- match xOpt with
       | Some xo =>
           x <- for_up 0 n (fun i a => v <- rd xo i ;; wr a i v) (q_x (p_b s)) ;;
           A <- p_theA s ;;
           Ax <- a_times A 1 n1 x n n0 (p_Ax s) m ;;
           Al <- for_up 0 m (fun j a => v <- rd Ax j ;; wr a j v) (p_Ax_l s) ;;
           Au <- for_up 0 m (fun j a => v <- rd Ax j ;; wr a j v) (p_Ax_u s) ;;
           Ok (set_p_Ax_u Au (set_p_Ax_l Al (set_p_Ax Ax (up_b (set_q_x x) s))))
       | None =>
           let zero k (a : arr) := for_up 0 k (fun i a => wr a i n0) a in
           x <- zero n (q_x (p_b s)) ;;
           Ax <- zero m (p_Ax s) ;; Al <- zero m (p_Ax_l s) ;; Au <- zero m (p_Ax_u s) ;;
           Ok (set_p_Ax_u Au (set_p_Ax_l Al (set_p_Ax Ax (up_b (set_q_x x) s))))
       end ;;
  y <- for_up 0 (n + m) (fun i a => v <- match yOpt with Some yo => rd yo i | None => Ok n0 end ;; wr a i v) (q_y (p_b s)) ;;
  Ok (up_b (set_q_y y) s).

(** QProblem.cpp:2602-2642; the part without A'*yC is that of the base class *)
Definition p_setupAuxiliaryQPgradient (s : qp) : res qp :=
  s <- on_b (setupAuxiliaryQPgradient) s ;;
  A <- p_theA s ;;
  g <- a_transTimes A 1 n1 (skipn (Z.to_nat (pV s)) (q_y (p_b s))) (pC s) n1 (q_g (p_b s)) (pV s) ;;
  Ok (up_b (set_q_g g) s).

(** QProblem.cpp:2647-2663 *)
Definition p_areBoundsConsistent (lbn ubn lbAn ubAn : option arr) (s : qp) : res returnValue :=
  r <- areBoundsConsistent lbn ubn (p_b s) ;;
  if r =r? RET_QP_INFEASIBLE then Ok RET_QP_INFEASIBLE else
  match lbAn, ubAn with
  | Some ln, Some un =>
      c <- forb_up 0 (pC s) (fun i _ =>
             l <- rd ln i ;; u <- rd un i ;;
             if l >' u +' nEPS then Ok (Brk tt) else Ok (Next tt)) tt ;;
      Ok (match c with Brk _ => RET_QP_INFEASIBLE | Next _ => SUCCESSFUL_RETURN end)
  | _, _ => Ok SUCCESSFUL_RETURN
  end.

(** The new limits of one bound or constraint, QProblem.cpp:2680-2734 and
    2740-2798.  [xl] and [xu] are the values from below and from above (both
    x[i] for a bound); [None]: unknown status.  The guess is a null pointer
    unless [relax]. *)
Definition auxLimits (relax : bool) (rlx xl xu l u : N) (v : SubjectToStatus) (eq : bool) (aux : res SubjectToStatus)
  : res (option (N * N)) :=
  match v with
  | ST_INACTIVE =>
      if relax then
        if eq then Ok (Some (xl, xu)) else
        a <- aux ;;
        Ok (Some (if is_sts a ST_LOWER then xl else xl -' rlx, if is_sts a ST_UPPER then xu else xu +' rlx))
      else Ok (Some (l, u))
  | ST_LOWER => Ok (Some (xl, if eq then xl else if relax then xl +' rlx else u))
  | ST_UPPER => Ok (Some (if eq then xu else if relax then xu -' rlx else l, xu))
  | ST_INFEASIBLE_LOWER | ST_INFEASIBLE_UPPER => Ok (Some (l, u))
  | ST_UNDEFINED => Ok None
  end.

(** QProblem.cpp:2668-2812 *)
Definition p_setupAuxiliaryQPbounds (auxB auxC : option subjectTo) (relax : bool) (s : qp) : res (returnValue * qp) :=
  let rlx := o_boundRelaxation (p_opts s) in
  let deref (a : option subjectTo) i : res SubjectToStatus := match a with Some a => st_getStatus a i | None => UB end in
  c <- forb_up 0 (pV s) (fun i '(lb, ub) =>
     v <- st_getStatus (p_bounds s) i ;;
     ty <- st_getType (p_bounds s) i ;;
     xi <- rd (q_x (p_b s)) i ;; l <- rd lb i ;; u <- rd ub i ;;
     w <- auxLimits relax rlx xi xi l u v (is_stt ty ST_EQUALITY) (deref auxB i) ;;
     match w with
     | Some (l, u) => lb <- wr lb i l ;; ub <- wr ub i u ;; Ok (Next (lb, ub))
     | None => Ok (Brk (lb, ub))
     end) (q_lb (p_b s), q_ub (p_b s)) ;;
  let setB (lb ub : arr) := up_b (fun b => set_q_ub ub (set_q_lb lb b)) in
  match c with
  | Brk (lb, ub) => Ok (RET_UNKNOWN_BUG, setB lb ub s)
  | Next (lb, ub) =>
      let s := setB lb ub s in
      c <- forb_up 0 (pC s) (fun i '(lbA, ubA, Al, Au) =>
         v <- st_getStatus (p_cons s) i ;;
         ty <- st_getType (p_cons s) i ;;
         xl <- rd Al i ;; xu <- rd Au i ;; l <- rd lbA i ;; u <- rd ubA i ;;
         w <- auxLimits relax rlx xl xu l u v (is_stt ty ST_EQUALITY) (deref auxC i) ;;
         match w with
         | Some (l, u) =>
             lbA <- wr lbA i l ;; ubA <- wr ubA i u ;;
             Al <- wr Al i (xl -' l) ;; Au <- wr Au i (u -' xu) ;; Ok (Next (lbA, ubA, Al, Au))
         | None => Ok (Brk (lbA, ubA, Al, Au))
         end) (p_lbA s, p_ubA s, p_Ax_l s, p_Ax_u s) ;;
      let setC '(lbA, ubA, Al, Au) := set_p_Ax_u Au (set_p_Ax_l Al (set_p_ubA ubA (set_p_lbA lbA s))) in
      Ok (match c with Next t => (SUCCESSFUL_RETURN, setC t) | Brk t => (RET_UNKNOWN_BUG, setC t) end)
  end.

(** The status QProblem.cpp:2222-2342 chooses for constraint i *)
Definition auxStatusC (xOpt yOpt : option arr) (guess : option subjectTo) (s : qp) (i : Z) : res SubjectToStatus :=
  let eqOr (v : SubjectToStatus) : res SubjectToStatus :=
    t <- st_getType (p_cons s) i ;; Ok (if is_stt t ST_EQUALITY then ST_LOWER else v) in
  match guess with
  | Some gc => v <- st_getStatus gc i ;; eqOr v
  | None =>
      match yOpt with
      | Some y =>
          yi <- rd y (pV s + i) ;;
          if yi >' nEPS then Ok ST_LOWER else
          if yi <' -' nEPS then Ok ST_UPPER else eqOr ST_INACTIVE
      | None =>
          match xOpt with
          | Some _ =>
              ax <- rd (p_Ax s) i ;; l <- rd (p_lbA s) i ;;
              if ax -' l <=' o_boundTolerance (p_opts s) then Ok ST_LOWER else
              u <- rd (p_ubA s) i ;; au <- rd (p_Ax_u s) i ;;
              if u -' au <=' o_boundTolerance (p_opts s) then Ok ST_UPPER else eqOr ST_INACTIVE
          | None => eqOr ST_INACTIVE
          end
      end
  end.

(** QProblem.cpp:2199-2346 *)
Definition p_obtainAuxiliaryWorkingSet (xOpt yOpt : option arr) (gB gC : option subjectTo) (s : qp) (auxB auxC : subjectTo)
  : res (returnValue * subjectTo * subjectTo) :=
  '(r, auxB) <- obtainAuxiliaryWorkingSet xOpt yOpt gB (p_b s) auxB ;;
  if negb (r =r? SUCCESSFUL_RETURN) then Ok (RET_OBTAINING_WORKINGSET_FAILED, auxB, auxC) else
  c <- forb_up 0 (pC s) (fun i aux =>
         v <- auxStatusC xOpt yOpt gC s i ;;
         '(r, aux) <- st_setup KConstraints aux i v ;;
         if r =r? SUCCESSFUL_RETURN then Ok (Next aux) else Ok (Brk aux)) auxC ;;
  Ok (match c with
      | Next aux => (SUCCESSFUL_RETURN, auxB, aux)
      | Brk aux => (RET_OBTAINING_WORKINGSET_FAILED, auxB, aux)
      end).

(** ** The working set of the auxiliary QP *)
(** 2363-2386: no status is undefined *)
Definition ws_defined (n : Z) (own guess : subjectTo) : res bool :=
  c <- forb_up 0 n (fun i _ =>
         a <- st_getStatus own i ;;
         if is_sts a ST_UNDEFINED then Ok (Brk tt) else
         b <- st_getStatus guess i ;;
         if is_sts b ST_UNDEFINED then Ok (Brk tt) else Ok (Next tt)) tt ;;
  Ok (match c with Brk _ => false | Next _ => true end).

(** 2388-2405: all bounds and no constraint shall be active *)
Definition ws_trivial (auxB auxC : option subjectTo) (s : qp) : res bool :=
  c <- forb_up 0 (pV s) (fun i _ =>
         v <- st_getStatus (gBounds auxB s) i ;; if is_sts v ST_INACTIVE then Ok (Brk tt) else Ok (Next tt)) tt ;;
  d <- forb_up 0 (pC s) (fun i _ =>
         t <- st_getType (p_cons s) i ;;
         if is_stt t ST_EQUALITY then Ok (Brk tt) else
         v <- st_getStatus (gCons auxC s) i ;; if is_sts v ST_INACTIVE then Ok (Next tt) else Ok (Brk tt)) tt ;;
  Ok (match c, d with Next _, Next _ => true | _, _ => false end).

(** a loop over bounds or constraints whose steps may fail *)
Definition ws_loop (n : Z) (step : Z -> qp -> res (returnValue * qp)) (s : qp) : res (ctl qp qp) :=
  forb_up 0 n (fun i s =>
    '(r, s) <- step i s ;; if r =r? SUCCESSFUL_RETURN then Ok (Next s) else Ok (Brk s)) s.

(** QProblem.cpp:2351-2538 *)
Definition p_setupAuxiliaryWorkingSet (auxB auxC : option subjectTo) (afresh : bool) (s : qp) : res (returnValue * qp) :=
  let stB i (s : qp) := st_getStatus (p_bounds s) i in
  let stC i (s : qp) := st_getStatus (p_cons s) i in
  let gB i (s : qp) := st_getStatus (gBounds auxB s) i in
  let gC i (s : qp) := st_getStatus (gCons auxC s) i in
  ok <- ws_defined (pV s) (p_bounds s) (gBounds auxB s) ;;
  if negb ok then Ok (RET_UNKNOWN_BUG, s) else
  ok <- ws_defined (pC s) (p_cons s) (gCons auxC s) ;;
  if negb ok then Ok (RET_UNKNOWN_BUG, s) else
  trivial <- ws_trivial auxB auxC s ;;
  if (trivial : bool) then
    s <- for_up 0 (pV s) (fun i s =>
           v <- stB i s ;;
           if is_sts v ST_INACTIVE then
             w <- gB i s ;; '(_, b) <- st_activate (p_bounds s) i w ;; Ok (up_b (set_q_bounds b) s)
           else Ok s) s ;;
    Ok (SUCCESSFUL_RETURN, s)
  else
  let upd := negb afresh in
  let full := o_enableFullLITests (p_opts s) in
  let eps := o_epsLITests (p_opts s) in
  let nzc (s : qp) := o_enableNZCTests (p_opts s) in
  let s := up_b (fun b => set_q_opts (set_o_enableFullLITests false (q_opts b)) b) s in
  let phase n (step : Z -> qp -> res (returnValue * qp)) (rest : qp -> res (returnValue * qp)) (s : qp) : res (returnValue * qp) :=
    c <- ws_loop n step s ;;
    match c with Brk s => Ok (RET_SETUP_WORKINGSET_FAILED, s) | Next s => rest s end in
  let dropC v i s : res (returnValue * qp) :=
    a <- stC i s ;;
    if is_sts a v then b <- gC i s ;; if is_sts b v then Ok (SUCCESSFUL_RETURN, s) else p_removeConstraint junk i upd false (nzc s) s
    else Ok (SUCCESSFUL_RETURN, s) in
  let dropB v i s : res (returnValue * qp) :=
    a <- stB i s ;;
    if is_sts a v then b <- gB i s ;; if is_sts b v then Ok (SUCCESSFUL_RETURN, s) else p_removeBound junk i upd false (nzc s) s
    else Ok (SUCCESSFUL_RETURN, s) in
  let both (f : SubjectToStatus -> Z -> qp -> res (returnValue * qp)) i s : res (returnValue * qp) :=
    '(r, s) <- f ST_LOWER i s ;; if r =r? SUCCESSFUL_RETURN then f ST_UPPER i s else Ok (r, s) in
  let removals rest : qp -> res (returnValue * qp) :=
    if afresh then rest else phase (pC s) (both dropC) (phase (pV s) (both dropB) rest) in
  let eqB i s : res (returnValue * qp) :=
    t <- st_getType (p_bounds s) i ;;
    if is_stt t ST_EQUALITY then
      a <- stB i s ;; if is_sts a ST_INACTIVE then p_addBound junk i ST_LOWER upd true s else Ok (SUCCESSFUL_RETURN, s)
    else Ok (SUCCESSFUL_RETURN, s) in
  let eqC i s : res (returnValue * qp) :=
    t <- st_getType (p_cons s) i ;;
    if is_stt t ST_EQUALITY then
      a <- stC i s ;;
      if is_sts a ST_INACTIVE then
        '(r, s) <- addConstraint_checkLI junk i s ;;
        if r =r? RET_LINEARLY_INDEPENDENT then p_addConstraint junk i ST_LOWER upd true s
        else '(_, c) <- st_setType (p_cons s) i ST_BOUNDED ;; Ok (SUCCESSFUL_RETURN, set_p_cons c s)
      else Ok (SUCCESSFUL_RETURN, s)
    else Ok (SUCCESSFUL_RETURN, s) in
  let moreB i s : res (returnValue * qp) :=
    t <- st_getType (p_bounds s) i ;;
    if is_stt t ST_EQUALITY then Ok (SUCCESSFUL_RETURN, s) else
    a <- stB i s ;;
    if negb (is_sts a ST_INACTIVE) then Ok (SUCCESSFUL_RETURN, s) else
    b <- gB i s ;;
    if is_sts b ST_INACTIVE then Ok (SUCCESSFUL_RETURN, s) else
    '(r, s) <- addBound_checkLI junk i s ;;
    if r =r? RET_LINEARLY_INDEPENDENT then b <- gB i s ;; p_addBound junk i b upd true s else Ok (SUCCESSFUL_RETURN, s) in
  let moreC i s : res (returnValue * qp) :=
    t <- st_getType (p_cons s) i ;;
    if is_stt t ST_EQUALITY then Ok (SUCCESSFUL_RETURN, s) else
    b <- gC i s ;;
    if is_sts b ST_INACTIVE then Ok (SUCCESSFUL_RETURN, s) else
    a <- stC i s ;;
    if negb (is_sts a ST_INACTIVE) then Ok (SUCCESSFUL_RETURN, s) else
    '(r, s) <- addConstraint_checkLI junk i s ;;
    if r =r? RET_LINEARLY_INDEPENDENT then b <- gC i s ;; p_addConstraint junk i b upd true s else Ok (SUCCESSFUL_RETURN, s) in
  let finish (s : qp) : res (returnValue * qp) :=
    Ok (SUCCESSFUL_RETURN, up_b (fun b => set_q_opts (set_o_epsLITests eps (set_o_enableFullLITests full (q_opts b))) b) s) in
  removals (phase (pV s) eqB (phase (pC s) eqC (phase (pV s) moreB (phase (pC s) moreC finish)))) s.

(** QProblem.cpp:5747-5780 *)
Definition p_shallRefactorise (gB gC : option subjectTo) (s : qp) : res bool :=
  let h := q_htype (p_b s) in
  if is_hst h HST_SEMIDEF || is_hst h HST_INDEF then Ok true else
  let diff n own guess : res Z := for_up 0 n (fun i d =>
         a <- st_getStatus guess i ;; b <- st_getStatus own i ;; Ok (if is_sts a b then d else d + 1)) 0 in
  dB <- diff (pV s) (p_bounds s) (gBounds gB s) ;;
  dC <- diff (pC s) (p_cons s) (gCons gC s) ;;
  Ok (st_nAct (gCons gC s) + st_nAct (gBounds gB s) <? 2 * (dB + dC)).

(** 5720-5724 *)
Definition zeroDuals (s : qp) : res qp :=
  y <- for_up 0 (pV s) (fun i y =>
         v <- st_getStatus (p_bounds s) i ;; if is_sts v ST_INACTIVE then wr y i n0 else Ok y) (q_y (p_b s)) ;;
  y <- for_up 0 (pC s) (fun i y =>
         v <- st_getStatus (p_cons s) i ;; if is_sts v ST_INACTIVE then wr y (pV s + i) n0 else Ok y) y ;;
  Ok (up_b (set_q_y y) s).

(** 5730-5736 *)
Definition recomputeAx (s : qp) : res qp :=
  A <- p_theA s ;;
  Ax <- a_times A 1 n1 (q_x (p_b s)) (pV s) n0 (p_Ax s) (pC s) ;;
  Al <- for_up 0 (pC s) (fun j a => v <- rd Ax j ;; wr a j v) (p_Ax_l s) ;;
  Au <- for_up 0 (pC s) (fun j a => v <- rd Ax j ;; wr a j v) (p_Ax_u s) ;;
  Ok (set_p_Ax_u Au (set_p_Ax_l Al (set_p_Ax Ax s))).

(** QProblem.cpp:5658-5741; both guesses are passed *)
Definition p_setupAuxiliaryQP (gB gC : option subjectTo) (s : qp) : res (returnValue * qp) :=
  match gB, gC with
  | None, None => Ok (SUCCESSFUL_RETURN, s)
  | _, _ =>
      let s := up_b (set_q_status QPS_PREPARINGAUXILIARYQP) s in
      b <- p_shallRefactorise gB gC s ;;
      '(r, s) <- (if (b : bool) then
          let s := up_b (set_q_bounds (snd (st_init (p_bounds s) (pV s)))) s in
          let s := set_p_cons (snd (st_init (p_cons s) (pC s))) s in
          s <- p_setupSubjectToType (Some (q_lb (p_b s))) (Some (q_ub (p_b s))) (Some (p_lbA s)) (Some (p_ubA s)) s ;;
          '(r, bd) <- st_setupAll KBounds (p_bounds s) ST_INACTIVE ;;
          let s := up_b (set_q_bounds bd) s in
          if negb (r =r? SUCCESSFUL_RETURN) then Ok (RET_SETUP_AUXILIARYQP_FAILED, s) else
          '(r, cn) <- st_setupAll KConstraints (p_cons s) ST_INACTIVE ;;
          let s := set_p_cons cn s in
          if negb (r =r? SUCCESSFUL_RETURN) then Ok (RET_SETUP_AUXILIARYQP_FAILED, s) else
          '(r, s) <- setupTQfactorisation s ;;
          if negb (r =r? SUCCESSFUL_RETURN) then Ok (RET_SETUP_AUXILIARYQP_FAILED, s) else
          '(_, s) <- p_setupAuxiliaryWorkingSet gB gC true s ;;
          '(r, s) <- computeProjectedCholesky s ;;
          Ok (if r =r? SUCCESSFUL_RETURN then SUCCESSFUL_RETURN else RET_SETUP_AUXILIARYQP_FAILED, s)
        else
          '(_, s) <- p_setupAuxiliaryWorkingSet gB gC false s ;; Ok (SUCCESSFUL_RETURN, s)) ;;
      if negb (r =r? SUCCESSFUL_RETURN) then Ok (r, s) else
      s <- zeroDuals s ;;
      s <- p_setupAuxiliaryQPgradient s ;;
      s <- recomputeAx s ;;
      '(_, s) <- p_setupAuxiliaryQPbounds None None false s ;;
      Ok (SUCCESSFUL_RETURN, s)
  end.

(** ** One iteration *)
(** QProblem.cpp:4571-4631; always successful *)
Definition p_determineDataShift (gn : arr) (lbn ubn lbAn ubAn : option arr) (s : qp) (d : pshift)
  : res (pshift * bool * bool) :=
  '(db, bBz) <- determineDataShift gn lbn ubn (p_b s) (mkD (sh_g d) (sh_lb d) (sh_ub d) [] [] []) ;;
  let shift (new : option arr) (dflt : N) (cur : arr) (i : Z) : res N :=
    v <- match new with Some a => rd a i | None => Ok dflt end ;; c <- rd cur i ;; Ok (v -' c) in
  dlA <- for_up 0 (pC s) (fun i a => v <- shift lbAn (-' nINFTY) (p_lbA s) i ;; wr a i v) (sh_lbA d) ;;
  duA <- for_up 0 (pC s) (fun i a => v <- shift ubAn nINFTY (p_ubA s) i ;; wr a i v) (sh_ubA d) ;;
  c <- forb_up 0 (pAC s) (fun i _ =>
         ii <- rd (p_AC s) i ;;
         a <- rd dlA ii ;;
         if nabs a >' nEPS then Ok (Brk tt) else
         b <- rd duA ii ;;
         if nabs b >' nEPS then Ok (Brk tt) else Ok (Next tt)) tt ;;
  Ok (mkS (dl_g db) dlA duA (dl_lb db) (dl_ub db), match c with Brk _ => false | Next _ => true end, bBz).

(** The step length and what blocks: t, BC_idx, BC_status, BC_isBound *)
Record block := mkBlock { bk_t : N; bk_idx : Z; bk_st : SubjectToStatus; bk_isB : bool }.

(** one ratio test of performStep: 5040-5055 and so on *)
Definition p_ratio (n : Z) (idx : list Z) (st : subjectTo) (num den : Z -> Z -> res N) (v : SubjectToStatus) (isB : bool)
    (s : qp) (nd : arr * arr) (b : block) : res (arr * arr * block) :=
  '(nu, de) <- for_up 0 n (fun i '(nu, de) =>
     ii <- rd idx i ;; a <- num i ii ;; nu <- wr nu i a ;; c <- den i ii ;; de <- wr de i c ;; Ok (nu, de)) nd ;;
  let o := p_opts s in
  '(t, k) <- performRatioTest n idx st nu de (o_epsNum o) (o_epsDen o) (bk_t b) ;;
  Ok (nu, de, if 0 <=? k then mkBlock t k v isB else mkBlock t (bk_idx b) (bk_st b) (bk_isB b)).

(** 5007-5022 *)
Definition deltaX (p : pstep) (s : qp) : res arr :=
  let put n idx (dx a : arr) := for_up 0 n (fun j a => jj <- rd idx j ;; v <- rd dx j ;; wr a jj v) a in
  a <- put (pFR s) (p_FR s) (sp_xFR p) (junk (pV s)) ;;
  put (pFX s) (p_FX s) (sp_xFX p) a.

(** 5024-5196; also returns delta_Ax *)
Definition p_ratioTests (d : pshift) (p : pstep) (s : qp) : res (block * arr) :=
  let x := q_x (p_b s) in let y := q_y (p_b s) in
  let dim := if pV s >? pC s then pV s else pC s in
  dx <- deltaX p s ;;
  let nd := (junk dim, junk dim) in
  '(nu, de, b) <- p_ratio (pAC s) (p_AC s) (p_cons s) (fun _ ii => rd y (pV s + ii))
                    (fun i _ => v <- rd (sp_yAC p) i ;; Ok (-' v)) ST_INACTIVE false s nd (mkBlock n1 (-1) ST_UNDEFINED false) ;;
  '(nu, de, b) <- p_ratio (pFX s) (p_FX s) (p_bounds s) (fun _ ii => rd y ii)
                    (fun i _ => v <- rd (sp_yFX p) i ;; Ok (-' v)) ST_INACTIVE true s (nu, de) b ;;
  A <- p_theA s ;;
  dAx <- a_times_rows A (p_inactive s) dx (pV s) (junk (pC s)) (pC s) ;;
  '(nu, de, b) <- (if st_noLower (p_cons s) then Ok (nu, de, b) else
                   p_ratio (pIAC s) (p_IAC s) (p_cons s) (fun _ ii => a <- rd (p_Ax_l s) ii ;; Ok (getMax a n0))
                     (fun _ ii => l <- rd (sh_lbA d) ii ;; a <- rd dAx ii ;; Ok (l -' a)) ST_LOWER false s (nu, de) b) ;;
  '(nu, de, b) <- (if st_noUpper (p_cons s) then Ok (nu, de, b) else
                   p_ratio (pIAC s) (p_IAC s) (p_cons s) (fun _ ii => a <- rd (p_Ax_u s) ii ;; Ok (getMax a n0))
                     (fun _ ii => a <- rd dAx ii ;; u <- rd (sh_ubA d) ii ;; Ok (a -' u)) ST_UPPER false s (nu, de) b) ;;
  '(nu, de, b) <- (if st_noLower (p_bounds s) then Ok (nu, de, b) else
                   p_ratio (pFR s) (p_FR s) (p_bounds s)
                     (fun _ ii => xi <- rd x ii ;; l <- rd (q_lb (p_b s)) ii ;; Ok (getMax (xi -' l) n0))
                     (fun i ii => l <- rd (sh_lb d) ii ;; v <- rd (sp_xFR p) i ;; Ok (l -' v)) ST_LOWER true s (nu, de) b) ;;
  '(_, _, b) <- (if st_noUpper (p_bounds s) then Ok (nu, de, b) else
                 p_ratio (pFR s) (p_FR s) (p_bounds s)
                   (fun _ ii => u <- rd (q_ub (p_b s)) ii ;; xi <- rd x ii ;; Ok (getMax (u -' xi) n0))
                   (fun i ii => v <- rd (sp_xFR p) i ;; u <- rd (sh_ub d) ii ;; Ok (v -' u)) ST_UPPER true s (nu, de) b) ;;
  Ok (b, dAx).

(** 5141-5149 and 5258-5267: the inactive constraints; delta_Ax_l and delta_Ax_u
    are only written and read for those that are not unbounded *)
Definition stepInactive (tau : N) (d : pshift) (dAx : arr) (s : qp) (q : arr * arr * arr) : res (arr * arr * arr) :=
  for_up 0 (pIAC s) (fun i '(Ax, Al, Au) =>
    ii <- rd (p_IAC s) i ;;
    t <- st_getType (p_cons s) ii ;;
    if is_stt t ST_UNBOUNDED then Ok (Ax, Al, Au) else
    da <- rd dAx ii ;; dl <- rd (sh_lbA d) ii ;; du <- rd (sh_ubA d) ii ;;
    a <- rd Ax ii ;; l <- rd Al ii ;; u <- rd Au ii ;;
    Ax <- wr Ax ii (a +' tau *' da) ;;
    Al <- wr Al ii (l +' tau *' (da -' dl)) ;;
    Au <- wr Au ii (u +' tau *' (du -' da)) ;;
    Ok (Ax, Al, Au)) q.

(** 5213-5268 *)
Definition p_applyStep (d : pshift) (p : pstep) (dAx : arr) (s : qp) : res qp :=
  let tau := q_tau (p_b s) in
  if tau >' nZERO then
    x <- stepIdx (pFR s) (p_FR s) tau (sp_xFR p) (q_x (p_b s)) ;;
    x <- stepIdx (pFX s) (p_FX s) tau (sp_xFX p) x ;;
    y <- stepIdx (pFX s) (p_FX s) tau (sp_yFX p) (q_y (p_b s)) ;;
    y <- for_up 0 (pAC s) (fun i y =>
           ii <- rd (p_AC s) i ;; u <- rd y (pV s + ii) ;; v <- rd (sp_yAC p) i ;; wr y (pV s + ii) (u +' tau *' v)) y ;;
    g <- stepAll (pV s) tau (sh_g d) (q_g (p_b s)) ;;
    lb <- stepAll (pV s) tau (sh_lb d) (q_lb (p_b s)) ;;
    ub <- stepAll (pV s) tau (sh_ub d) (q_ub (p_b s)) ;;
    lbA <- stepAll (pC s) tau (sh_lbA d) (p_lbA s) ;;
    ubA <- stepAll (pC s) tau (sh_ubA d) (p_ubA s) ;;
    A <- p_theA s ;;
    Ax <- a_times_rows A (p_active s) x (pV s) (p_Ax s) (pC s) ;;
    '(Al, Au) <- for_up 0 (pAC s) (fun i '(Al, Au) =>
        ii <- rd (p_AC s) i ;; u <- rd ubA ii ;; a <- rd Ax ii ;; l <- rd lbA ii ;;
        Au <- wr Au ii (u -' a) ;; Al <- wr Al ii (a -' l) ;; Ok (Al, Au)) (p_Ax_l s, p_Ax_u s) ;;
    '(Ax, Al, Au) <- stepInactive tau d dAx s (Ax, Al, Au) ;;
    Ok (up_b (fun b => set_q_ub ub (set_q_lb lb (set_q_g g (set_q_y y (set_q_x x b)))))
          (set_p_Ax_u Au (set_p_Ax_l Al (set_p_Ax Ax (set_p_ubA ubA (set_p_lbA lbA s))))))
  else Ok s.

(** QProblem.cpp:4981-5279; always successful *)
Definition p_performStep (d : pshift) (p : pstep) (s : qp) : res (block * qp) :=
  '(b, dAx) <- p_ratioTests d p s ;;
  s <- p_applyStep d p dAx (up_b (set_q_tau (bk_t b)) s) ;;
  Ok (b, s).

(** QProblem.cpp:5284-5367 *)
Definition p_changeActiveSet (b : block) (s : qp) : res (returnValue * qp) :=
  let i := bk_idx b in
  let zero k (s : qp) : res (returnValue * qp) :=
    y <- wr (q_y (p_b s)) k n0 ;; Ok (SUCCESSFUL_RETURN, up_b (set_q_y y) s) in
  match bk_st b with
  | ST_UNDEFINED => Ok (SUCCESSFUL_RETURN, s)
  | ST_INACTIVE =>
      '(r, s) <- (if bk_isB b then p_removeBound junk i true true (o_enableNZCTests (p_opts s)) s
                  else p_removeConstraint junk i true true (o_enableNZCTests (p_opts s)) s) ;;
      if negb (r =r? SUCCESSFUL_RETURN) then Ok (RET_REMOVE_FROM_ACTIVESET_FAILED, s)
      else zero (if bk_isB b then i else pV s + i) s
  | v =>
      '(r, s) <- (if bk_isB b then p_addBound junk i v true true s else p_addConstraint junk i v true true s) ;;
      Ok (if r =r? SUCCESSFUL_RETURN then SUCCESSFUL_RETURN else
          if r =r? (if bk_isB b then RET_ADDBOUND_FAILED_INFEASIBILITY else RET_ADDCONSTRAINT_FAILED_INFEASIBILITY) then r
          else RET_ADD_TO_ACTIVESET_FAILED, s)
  end.

(** QProblem.cpp:5372-5411 *)
Definition p_getRelativeHomotopyLength (gn : arr) (lbn ubn lbAn ubAn : option arr) (s : qp) : res N :=
  len <- getRelativeHomotopyLength gn lbn ubn (p_b s) ;;
  len <- match lbAn with Some a => homLen1 a (p_lbA s) (pC s) len | None => Ok len end ;;
  match ubAn with Some a => homLen1 a (p_ubA s) (pC s) len | None => Ok len end.

(** the ramped limits and dual of one bound or constraint, 5434-5452, 5464-5484:
    lower limit, upper limit, dual *)
Definition ramp1 (v : SubjectToStatus) (x rP rD l u y : N) : N * N * N :=
  let sca := getMax (nabs x) n1 in
  (if is_sts v ST_LOWER then x else x -' sca *' rP,
   if is_sts v ST_UPPER then x else x +' sca *' rP,
   match v with ST_LOWER => rD | ST_UPPER => -' rD | ST_INACTIVE => n0 | _ => y end).

(** QProblem.cpp:5416-5493; always successful *)
Definition p_performRamping (s : qp) : res qp :=
  let n := pV s in let m := pC s in
  let nR := n + m + m + n in
  let off := q_rampOffset (p_b s) in
  let rv k := let t : N := rampT k off nR in (n1 -' t) *' q_ramp0 (p_b s) +' t *' q_ramp1 (p_b s) in
  '(lb, ub, y) <- for_up 0 n (fun i '(lb, ub, y) =>
     ty <- st_getType (p_bounds s) i ;;
     match ty with
     | ST_EQUALITY => xi <- rd (q_x (p_b s)) i ;; lb <- wr lb i xi ;; ub <- wr ub i xi ;; Ok (lb, ub, y)
     | ST_BOUNDED =>
         v <- st_getStatus (p_bounds s) i ;;
         xi <- rd (q_x (p_b s)) i ;; l <- rd lb i ;; u <- rd ub i ;; yi <- rd y i ;;
         let '(l, u, yi) := ramp1 v xi (rv i) (rv (n + m + m + i)) l u yi in
         lb <- wr lb i l ;; ub <- wr ub i u ;; y <- wr y i yi ;; Ok (lb, ub, y)
     | _ => Ok (lb, ub, y)
     end) (q_lb (p_b s), q_ub (p_b s), q_y (p_b s)) ;;
  '(lbA, ubA, Al, Au, y) <- for_up 0 m (fun i '(lbA, ubA, Al, Au, y) =>
     ty <- st_getType (p_cons s) i ;;
     match ty with
     | ST_EQUALITY => a <- rd (p_Ax s) i ;; lbA <- wr lbA i a ;; ubA <- wr ubA i a ;; Ok (lbA, ubA, Al, Au, y)
     | ST_BOUNDED =>
         v <- st_getStatus (p_cons s) i ;;
         a <- rd (p_Ax s) i ;; l <- rd lbA i ;; u <- rd ubA i ;; yi <- rd y (n + i) ;;
         let '(l, u, yi) := ramp1 v a (rv (n + i)) (rv (n + m + i)) l u yi in
         lbA <- wr lbA i l ;; ubA <- wr ubA i u ;; y <- wr y (n + i) yi ;;
         Al <- wr Al i (a -' l) ;; Au <- wr Au i (u -' a) ;; Ok (lbA, ubA, Al, Au, y)
     | _ => Ok (lbA, ubA, Al, Au, y)
     end) (p_lbA s, p_ubA s, p_Ax_l s, p_Ax_u s, y) ;;
  s <- p_setupAuxiliaryQPgradient
         (up_b (fun b => set_q_y y (set_q_ub ub (set_q_lb lb b)))
            (set_p_Ax_u Au (set_p_Ax_l Al (set_p_ubA ubA (set_p_lbA lbA s))))) ;;
  Ok (up_b (fun b => set_q_rampOffset (q_rampOffset b + 1) b) s).

(** the corrected limits and dual of one bound or constraint, 5570-5594, 5606-5636 *)
Definition drift1 (v : SubjectToStatus) (x l u y : N) : N * N * N :=
  match v with
  | ST_LOWER => (x, getMax u x, getMax y n0)
  | ST_UPPER => (getMin l x, x, getMin y n0)
  | ST_INACTIVE => (getMin l x, getMax u x, n0)
  | _ => (l, u, y)
  end.

(** QProblem.cpp:5559-5652; always successful *)
Definition p_performDriftCorrection (s : qp) : res qp :=
  '(lb, ub, y) <- for_up 0 (pV s) (fun i '(lb, ub, y) =>
     ty <- st_getType (p_bounds s) i ;;
     match ty with
     | ST_BOUNDED =>
         v <- st_getStatus (p_bounds s) i ;;
         xi <- rd (q_x (p_b s)) i ;; l <- rd lb i ;; u <- rd ub i ;; yi <- rd y i ;;
         let '(l, u, yi) := drift1 v xi l u yi in
         lb <- wr lb i l ;; ub <- wr ub i u ;; y <- wr y i yi ;; Ok (lb, ub, y)
     | ST_EQUALITY => xi <- rd (q_x (p_b s)) i ;; lb <- wr lb i xi ;; ub <- wr ub i xi ;; Ok (lb, ub, y)
     | _ => Ok (lb, ub, y)
     end) (q_lb (p_b s), q_ub (p_b s), q_y (p_b s)) ;;
  '(lbA, ubA, Al, Au, y) <- for_up 0 (pC s) (fun i '(lbA, ubA, Al, Au, y) =>
     ty <- st_getType (p_cons s) i ;;
     match ty with
     | ST_BOUNDED =>
         v <- st_getStatus (p_cons s) i ;;
         match v with
         | ST_LOWER | ST_UPPER | ST_INACTIVE =>
             a <- rd (p_Ax s) i ;; l <- rd lbA i ;; u <- rd ubA i ;; yi <- rd y (pV s + i) ;;
             let '(l, u, yi) := drift1 v a l u yi in
             lbA <- wr lbA i l ;; ubA <- wr ubA i u ;; y <- wr y (pV s + i) yi ;;
             Al <- wr Al i (if is_sts v ST_LOWER then n0 else a -' l) ;;
             Au <- wr Au i (if is_sts v ST_UPPER then n0 else u -' a) ;;
             Ok (lbA, ubA, Al, Au, y)
         | _ => Ok (lbA, ubA, Al, Au, y)
         end
     | ST_EQUALITY =>
         a <- rd (p_Ax s) i ;; lbA <- wr lbA i a ;; ubA <- wr ubA i a ;; Al <- wr Al i n0 ;; Au <- wr Au i n0 ;;
         Ok (lbA, ubA, Al, Au, y)
     | _ => Ok (lbA, ubA, Al, Au, y)
     end) (p_lbA s, p_ubA s, p_Ax_l s, p_Ax_u s, y) ;;
  p_setupAuxiliaryQPgradient
    (up_b (fun b => set_q_y y (set_q_ub ub (set_q_lb lb b)))
       (set_p_Ax_u Au (set_p_Ax_l Al (set_p_ubA ubA (set_p_lbA lbA s))))).

(** ** Far bounds *)
(** QProblem.cpp:5498-5554; always successful *)
Definition p_updateFarBounds (far : N) (nRamp : Z) (lbn ubn lbAn ubAn : option arr) (s : qp) (f : arr * arr * arr * arr)
  : res (arr * arr * arr * arr) :=
  let '(lf, uf, lAf, uAf) := f in
  '(lf, uf) <- updateFarBounds far nRamp lbn ubn (p_b s) lf uf ;;
  '(lAf, uAf) <- for_up 0 (pC s) (fun i '(lAf, uAf) =>
    let v := if o_enableRamping (p_opts s) then
               let t := rampT (pV s + i) (q_rampOffset (p_b s)) nRamp in
               far *' (n1 +' (n1 -' t) *' q_ramp0 (p_b s) +' t *' q_ramp1 (p_b s))
             else far in
    l <- match lbAn with None => Ok (-' v) | Some a => w <- rd a i ;; Ok (getMax (-' v) w) end ;;
    lAf <- wr lAf i l ;;
    u <- match ubAn with None => Ok v | Some a => w <- rd a i ;; Ok (getMin v w) end ;;
    uAf <- wr uAf i u ;;
    Ok (lAf, uAf)) (lAf, uAf) ;;
  Ok (lf, uf, lAf, uAf).

(** ** Solution *)
(** QProblem.cpp:1861-1925 *)
Definition updateActivitiesForHotstart (lbn ubn : option arr) (s : qp) : res (returnValue * qp) :=
  let deref (a : option arr) i : res N := match a with Some a => rd a i | None => UB end in
  let o (s : qp) := p_opts s in
  let free i (s : qp) : res (returnValue * qp) :=
    '(r, s) <- p_removeBound junk i true false (o_enableNZCTests (o s)) s ;;
    if negb (r =r? SUCCESSFUL_RETURN) then Ok (r, s) else
    gi <- rd (q_g (p_b s)) i ;; yi <- rd (q_y (p_b s)) i ;;
    g <- wr (q_g (p_b s)) i (gi -' yi) ;; y <- wr (q_y (p_b s)) i n0 ;;
    Ok (SUCCESSFUL_RETURN, up_b (fun b => set_q_y y (set_q_g g b)) s) in
  let freeIf (cond : bool) v i (s : qp) : res (returnValue * qp) :=
    if cond then w <- st_getStatus (p_bounds s) i ;; if is_sts w v then free i s else Ok (SUCCESSFUL_RETURN, s)
    else Ok (SUCCESSFUL_RETURN, s) in
  s <- on_b (setupSubjectToType lbn ubn) s ;;
  c <- forb_up 0 (pV s) (fun i s =>
         ln <- deref lbn i ;;
         '(r, s) <- freeIf (ln <=' -' nINFTY) ST_LOWER i s ;;
         if negb (r =r? SUCCESSFUL_RETURN) then Ok (Brk (r, s)) else
         un <- deref ubn i ;;
         '(r, s) <- freeIf (un >=' nINFTY) ST_UPPER i s ;;
         if negb (r =r? SUCCESSFUL_RETURN) then Ok (Brk (r, s)) else
         s <- (if ln >' -' nINFTY then
                 l <- rd (q_lb (p_b s)) i ;;
                 if l <=' -' nINFTY then
                   x <- rd (q_x (p_b s)) i ;; lb <- wr (q_lb (p_b s)) i (x -' o_boundRelaxation (o s)) ;; Ok (up_b (set_q_lb lb) s)
                 else Ok s
               else Ok s) ;;
         s <- (if un <' nINFTY then
                 u <- rd (q_ub (p_b s)) i ;;
                 if u >=' nINFTY then
                   x <- rd (q_x (p_b s)) i ;; ub <- wr (q_ub (p_b s)) i (x +' o_boundRelaxation (o s)) ;; Ok (up_b (set_q_ub ub) s)
                 else Ok s
               else Ok s) ;;
         Ok (Next s)) s ;;
  match c with
  | Brk e => Ok e
  | Next s =>
      c <- forb_up 0 (pV s) (fun i s =>
             t <- st_getType (p_bounds s) i ;;
             if negb (is_stt t ST_EQUALITY) then Ok (Next s) else
             x <- rd (q_x (p_b s)) i ;;
             lb <- wr (q_lb (p_b s)) i x ;; ub <- wr (q_ub (p_b s)) i x ;;
             let s := up_b (fun b => set_q_ub ub (set_q_lb lb b)) s in
             v <- st_getStatus (p_bounds s) i ;;
             if negb (is_sts v ST_INACTIVE) then Ok (Next s) else
             '(r, s) <- addBound_checkLI junk i s ;;
             if negb (r =r? RET_LINEARLY_INDEPENDENT) then Ok (Next s) else
             '(r, s) <- p_addBound junk i ST_LOWER true true s ;;
             if negb (r =r? SUCCESSFUL_RETURN) then Ok (Brk (r, s)) else Ok (Next s)) s ;;
      Ok (match c with Brk e => e | Next s => (SUCCESSFUL_RETURN, s) end)
  end.

(** QProblem.cpp:1688-1722: refactorisation, ramping, drift correction *)
Definition p_afterChange (v : SubjectToStatus) (iter : Z) (s : qp) : res (returnValue * qp) :=
  let o := p_opts s in
  '(r, s) <- (if (0 <? o_enableCholeskyRefactorisation o) && (Z.rem iter (o_enableCholeskyRefactorisation o) =? 0)
              then computeProjectedCholesky s else Ok (SUCCESSFUL_RETURN, s)) ;;
  if negb (r =r? SUCCESSFUL_RETURN) then Ok (r, s) else
  let s := up_b (set_q_status QPS_HOMOTOPYQPSOLVED) s in
  let drift (s : qp) : res qp :=
    if (0 <? o_enableDriftCorrection (p_opts s)) && (Z.rem (iter + 1) (o_enableDriftCorrection (p_opts s)) =? 0)
    then p_performDriftCorrection s else Ok s in
  s <- (if negb (is_sts v ST_UNDEFINED) && ((q_tau (p_b s) <=' nEPS) && o_enableRamping (p_opts s))
        then p_performRamping s else drift s) ;;
  Ok (SUCCESSFUL_RETURN, s).

(** One iteration, QProblem.cpp:1545-1723.  [Brk (r, n, s)]: solveQP returns r
    and nWSR is n. *)
Definition p_solveIter (gn : arr) (lbn ubn lbAn ubAn : option arr) (nWSR performed iter : Z) (st : qp * pshift * pstep)
  : res (ctl (qp * pshift * pstep) (returnValue * Z * qp)) :=
  let '(s, d, p) := st in
  let '(ex, b) := cpuExceeded cpu (iter - performed) (p_b s) in
  let s := set_p_b b s in
  if ex then Ok (Brk (RET_MAX_NWSR_REACHED, iter, s)) else
  let s := up_b (set_q_status QPS_PERFORMINGHOMOTOPY) s in
  '(d, bCz, bBz) <- p_determineDataShift gn lbn ubn lbAn ubAn s d ;;
  '(r, p, s) <- p_stepDirection d bCz bBz p s ;;
  if negb (r =r? SUCCESSFUL_RETURN) then Ok (Brk (r, iter, s)) else
  '(k, s) <- p_performStep d p s ;;
  len <- p_getRelativeHomotopyLength gn lbn ubn lbAn ubAn s ;;
  if len <=' o_terminationTolerance (p_opts s) then
    Ok (Brk (SUCCESSFUL_RETURN, iter, up_b (set_q_status QPS_SOLVED) s))
  else
  '(r, s) <- p_changeActiveSet k s ;;
  if negb (r =r? SUCCESSFUL_RETURN) then
    if q_infeasible (p_b s) then
      Ok (Brk (RET_HOTSTART_STOPPED_INFEASIBILITY, iter,
               up_b (fun b => set_q_infeasible true (set_q_status QPS_HOMOTOPYQPSOLVED b)) s))
    else if q_unbounded (p_b s) then Ok (Brk (RET_HOTSTART_STOPPED_UNBOUNDEDNESS, iter, s))
    else Ok (Brk (r, iter, s))
  else
  '(r, s) <- p_afterChange (bk_st k) iter (up_b (fun b => set_q_wsc (q_wsc b + 1) b) s) ;;
  if negb (r =r? SUCCESSFUL_RETURN) then Ok (Brk (r, nWSR, s)) else Ok (Next (s, d, p)).

(** QProblem.cpp:1477-1747 *)
Definition p_solveQP (gn : arr) (lbn ubn lbAn ubAn : option arr) (nWSR performed : Z) (s : qp) : res (returnValue * Z * qp) :=
  match q_status (p_b s) with
  | QPS_NOTINITIALISED | QPS_PREPARINGAUXILIARYQP | QPS_PERFORMINGHOMOTOPY =>
      Ok (RET_HOTSTART_FAILED_AS_QP_NOT_INITIALISED, nWSR, s)
  | _ =>
      '(r, s) <- updateActivitiesForHotstart lbn ubn (up_b (set_q_status QPS_PERFORMINGHOMOTOPY) s) ;;
      if negb (r =r? SUCCESSFUL_RETURN) then Ok (r, nWSR, s) else
      let s := up_b (fun b => set_q_unbounded false (set_q_infeasible false b)) s in
      let n := pV s in let m := pC s in
      c <- forb_up performed nWSR (p_solveIter gn lbn ubn lbAn ubAn nWSR performed)
             (s, mkS (junk n) (junk m) (junk m) (junk n) (junk n), QProblem2.mkP (junk n) (junk n) (junk m) (junk n)) ;;
      Ok (match c with Brk e => e | Next (s, _, _) => (RET_MAX_NWSR_REACHED, nWSR, s) end)
  end.

(** QProblem.cpp:1753-1856 *)
Definition p_solveRegularisedQP (gn : arr) (lbn ubn lbAn ubAn : option arr) (nWSR performed : Z) (s : qp)
  : res (returnValue * Z * qp) :=
  if negb (usingReg (p_b s)) then p_solveQP gn lbn ubn lbAn ubAn nWSR performed s else
  '(r, total, s) <- p_solveQP gn lbn ubn lbAn ubAn nWSR performed s ;;
  if negb (r =r? SUCCESSFUL_RETURN) then Ok (r, total, s) else
  c <- forb_up 0 (o_numRegularisationSteps (p_opts s)) (fun _ '(total, s, gMod) =>
         gMod <- for_up 0 (pV s) (fun i a =>
                   u <- rd gn i ;; v <- rd (q_x (p_b s)) i ;; wr a i (u -' q_regVal (p_b s) *' v)) gMod ;;
         '(r, total, s) <- p_solveQP gMod lbn ubn lbAn ubAn nWSR total s ;;
         if negb (r =r? SUCCESSFUL_RETURN) then Ok (Brk (r, total, s)) else Ok (Next (total, s, gMod)))
       (total, s, junk (pV s)) ;;
  match c with
  | Brk e => Ok e
  | Next (total, s, _) =>
      g <- for_up 0 (pV s) (fun i a => u <- rd gn i ;; wr a i u) (q_g (p_b s)) ;;
      Ok (SUCCESSFUL_RETURN, total, up_b (set_q_g g) s)
  end.

(** 573-586 *)
Definition p_countActiveFar (lbn ubn lbAn ubAn : option arr) (f : arr * arr * arr * arr) (tol : N) (s : qp) : res Z :=
  let '(lf, uf, lAf, uAf) := f in
  k <- countActiveFar lbn ubn lf uf tol (p_b s) ;;
  for_up 0 (pC s) (fun i c =>
    l <- rd lAf i ;; u <- rd uAf i ;; ai <- rd (p_Ax s) i ;;
    a <- match lbAn with None => Ok true | Some w => v <- rd w i ;; Ok (l >' v) end ;;
    b <- match ubAn with None => Ok true | Some w => v <- rd w i ;; Ok (u <' v) end ;;
    let c := if (a : bool) && (nabs (l -' ai) <' tol) then c + 1 else c in
    Ok (if (b : bool) && (nabs (u -' ai) <' tol) then c + 1 else c)) k.

(** QProblem.cpp:527-619, one round per unit of [fuel]; [Hang] when it runs out *)
Fixpoint p_farLoop (fuel : nat) (gn : arr) (lbn ubn lbAn ubAn : option arr) (nWSRmax performed : Z) (far : N)
    (f : arr * arr * arr * arr) (s : qp) : res (returnValue * Z * qp) :=
  match fuel with
  | O => Hang
  | S fuel =>
      let '(lf, uf, lAf, uAf) := f in
      '(r, nWSR, s) <- p_solveRegularisedQP gn (Some lf) (Some uf) (Some lAf) (Some uAf) nWSRmax performed s ;;
      let far := far *' o_growFarBounds (p_opts s) in
      let again (s : qp) : res (returnValue * Z * qp) :=
        f <- p_updateFarBounds far (pV s + pC s) lbn ubn lbAn ubAn s f ;;
        p_farLoop fuel gn lbn ubn lbAn ubAn nWSRmax nWSR far f (up_b (fun b => set_q_rampOffset (q_rampOffset b + 1) b) s) in
      if q_infeasible (p_b s) then
        if far >=' nINFTY then Ok (RET_HOTSTART_STOPPED_INFEASIBILITY, nWSR, s) else again s
      else if is_qps (q_status (p_b s)) QPS_SOLVED then
        k <- p_countActiveFar lbn ubn lbAn ubAn f (far /' o_growFarBounds (p_opts s) *' o_boundTolerance (p_opts s)) s ;;
        if k =? 0 then Ok (r, nWSR, s) else
        let s := up_b (set_q_status QPS_HOMOTOPYQPSOLVED) s in
        if far >=' nINFTY then Ok (RET_HOTSTART_STOPPED_UNBOUNDEDNESS, nWSR, up_b (set_q_unbounded true) s) else again s
      else Ok (r, nWSR, s)
  end.

(** QProblem.cpp:446-636 *)
Definition p_hotstart (fuel : nat) (gn : arr) (lbn ubn lbAn ubAn : option arr) (nWSR : Z) (gB gC : option subjectTo) (s : qp)
  : res (returnValue * Z * qp) :=
  if pV s =? 0 then Ok (RET_QPOBJECT_NOT_SETUP, nWSR, s) else
  '(r, s) <- match gB, gC with
             | None, None => Ok (SUCCESSFUL_RETURN, s)
             | _, _ =>
                 '(r, s) <- p_setupAuxiliaryQP gB gC s ;;
                 if negb (r =r? SUCCESSFUL_RETURN) then Ok (RET_SETUP_AUXILIARYQP_FAILED, s)
                 else Ok (SUCCESSFUL_RETURN, up_b (set_q_status QPS_AUXILIARYQPSOLVED) s)
             end ;;
  if negb (r =r? SUCCESSFUL_RETURN) then Ok (r, nWSR, s) else
  r <- p_areBoundsConsistent lbn ubn lbAn ubAn s ;;
  (* returnvalue is still SUCCESSFUL_RETURN here (line 483, 487) *)
  if negb (r =r? SUCCESSFUL_RETURN) then Ok (SUCCESSFUL_RETURN, nWSR, up_b (set_q_infeasible true) s) else
  let s := up_b (fun b => set_q_count (q_count b + 1) b) s in
  '(r, s) <- (if q_haveChol (p_b s) then Ok (SUCCESSFUL_RETURN, s) else p_setupInitialCholesky s) ;;
  if negb (r =r? SUCCESSFUL_RETURN) then Ok (r, nWSR, s) else
  if negb (o_enableFarBounds (p_opts s)) then p_solveRegularisedQP gn lbn ubn lbAn ubAn nWSR 0 s else
  far <- extendFar lbn ubn (pV s) (o_initialFarBounds (p_opts s)) ;;
  far <- extendFar lbAn ubAn (pC s) far ;;
  f <- p_updateFarBounds far (pV s + pC s) lbn ubn lbAn ubAn s (junk (pV s), junk (pV s), junk (pC s), junk (pC s)) ;;
  p_farLoop fuel gn lbn ubn lbAn ubAn nWSR 0 far f s.

(** QProblem.cpp:1366-1394 *)
Definition p_copyR (Rin : option arr) (xOpt yOpt : option arr) (gB gC : option subjectTo) (s : qp) : res qp :=
  match gC with
  | None => on_b (copyR Rin xOpt yOpt gB) s
  | Some _ => Ok (up_b (set_q_haveChol false) s)
  end.

(** the original gradient and limits *)
Record qpdata := mkData { od_g : arr; od_lb : arr; od_ub : arr; od_lbA : arr; od_ubA : arr }.

(** QProblem.cpp:1301-1440: everything before the call of hotstart *)
Definition p_prepareInitial (xOpt yOpt : option arr) (gB gC : option subjectTo) (Rin : option arr) (s : qp)
  : res (returnValue * qpdata * qp) :=
  let none := mkData [] [] [] [] [] in
  let s := up_b (set_q_status QPS_NOTINITIALISED) s in
  '(r, b) <- determineHessianType (p_b s) ;;
  let s := set_p_b b s in
  if negb (r =r? SUCCESSFUL_RETURN) then Ok (RET_INIT_FAILED, none, s) else
  s <- p_setupSubjectToType (Some (q_lb (p_b s))) (Some (q_ub (p_b s))) (Some (p_lbA s)) (Some (p_ubA s)) s ;;
  let s := up_b (set_q_status QPS_PREPARINGAUXILIARYQP) s in
  '(r, bd) <- st_setupAll KBounds (p_bounds s) ST_INACTIVE ;;
  let s := up_b (set_q_bounds bd) s in
  if negb (r =r? SUCCESSFUL_RETURN) then Ok (RET_INIT_FAILED, none, s) else
  '(r, cn) <- st_setupAll KConstraints (p_cons s) ST_INACTIVE ;;
  let s := set_p_cons cn s in
  if negb (r =r? SUCCESSFUL_RETURN) then Ok (RET_INIT_FAILED, none, s) else
  s <- p_setupAuxiliaryQPsolution xOpt yOpt s ;;
  '(r, auxB, auxC) <- p_obtainAuxiliaryWorkingSet xOpt yOpt gB gC s (st_new (pV s)) (st_new (pC s)) ;;
  if negb (r =r? SUCCESSFUL_RETURN) then Ok (RET_INIT_FAILED, none, s) else
  '(r, s) <- (if is_hst (q_htype (p_b s)) HST_ZERO || is_hst (q_htype (p_b s)) HST_SEMIDEF
              then '(r, b) <- regulariseHessian (p_b s) ;; Ok (r, set_p_b b s) else Ok (SUCCESSFUL_RETURN, s)) ;;
  if negb (r =r? SUCCESSFUL_RETURN) then Ok (RET_INIT_FAILED_REGULARISATION, none, s) else
  '(r, s) <- setupTQfactorisation s ;;
  if negb (r =r? SUCCESSFUL_RETURN) then Ok (RET_INIT_FAILED_TQ, none, s) else
  '(r, s) <- p_setupAuxiliaryWorkingSet (Some auxB) (Some auxC) true s ;;
  if negb (r =r? SUCCESSFUL_RETURN) then Ok (RET_INIT_FAILED, none, s) else
  s <- p_copyR Rin xOpt yOpt gB gC s ;;
  let copy (n : Z) (src : arr) := for_up 0 n (fun i a => v <- rd src i ;; wr a i v) (junk n) in
  g0 <- copy (pV s) (q_g (p_b s)) ;; lb0 <- copy (pV s) (q_lb (p_b s)) ;; ub0 <- copy (pV s) (q_ub (p_b s)) ;;
  lbA0 <- copy (pC s) (p_lbA s) ;; ubA0 <- copy (pC s) (p_ubA s) ;;
  s <- p_setupAuxiliaryQPgradient s ;;
  '(r, s) <- p_setupAuxiliaryQPbounds (Some auxB) (Some auxC) true s ;;
  if negb (r =r? SUCCESSFUL_RETURN) then Ok (RET_INIT_FAILED, none, s) else
  let s := up_b (set_q_status QPS_AUXILIARYQPSOLVED) s in
  s <- (if o_enableRamping (p_opts s) then p_performRamping s else Ok s) ;;
  Ok (SUCCESSFUL_RETURN, mkData g0 lb0 ub0 lbA0 ubA0, s).

(** QProblem.cpp:1301-1471 *)
Definition p_solveInitialQP (fuel : nat) (xOpt yOpt : option arr) (gB gC : option subjectTo) (Rin : option arr)
    (nWSR : Z) (s : qp) : res (returnValue * Z * qp) :=
  '(r, o, s) <- p_prepareInitial xOpt yOpt gB gC Rin s ;;
  if negb (r =r? SUCCESSFUL_RETURN) then Ok (r, nWSR, s) else
  '(r, nWSR, s) <- p_hotstart fuel (od_g o) (Some (od_lb o)) (Some (od_ub o)) (Some (od_lbA o)) (Some (od_ubA o)) nWSR None None s ;;
  if q_infeasible (p_b s) then Ok (RET_INIT_FAILED_INFEASIBILITY, nWSR, s) else
  if q_unbounded (p_b s) then Ok (RET_INIT_FAILED_UNBOUNDEDNESS, nWSR, s) else
  if negb (r =r? SUCCESSFUL_RETURN) && negb (r =r? RET_MAX_NWSR_REACHED)
  then Ok (RET_INIT_FAILED_HOTSTART, nWSR, s) else Ok (r, nWSR, s).

(** QProblem.cpp:258-313, 316-372 *)
Definition p_init (fuel : nat) (h : harg N) (g : option arr) (A : aarg) (lb ub lbA ubA : option arr) (nWSR : Z)
    (xOpt yOpt : option arr) (gB gC : option subjectTo) (Rin : option arr) (s : qp) : res (returnValue * Z * qp) :=
  if pV s =? 0 then Ok (RET_QPOBJECT_NOT_SETUP, nWSR, s) else
  s <- (if isInitialised (p_b s) then '(_, s) <- p_reset s ;; Ok s else Ok s) ;;
  ok <- guessDefined gB (pV s) ;;
  if negb ok then Ok (RET_INVALID_ARGUMENTS, nWSR, s) else
  ok <- guessDefined gC (pC s) ;;
  if negb ok then Ok (RET_INVALID_ARGUMENTS, nWSR, s) else
  let given {A} (a : option A) := match a with Some _ => true | None => false end in
  if negb (given xOpt) && given yOpt && (given gB || given gC) then Ok (RET_INVALID_ARGUMENTS, nWSR, s) else
  if given Rin && (given xOpt || given yOpt || given gB || given gC) then Ok (RET_NO_CHOLESKY_WITH_INITIAL_GUESS, nWSR, s) else
  '(r, s) <- p_setupQPdata junk h g A lb ub lbA ubA s ;;
  if negb (r =r? SUCCESSFUL_RETURN) then Ok (RET_INVALID_ARGUMENTS, nWSR, s) else
  p_solveInitialQP fuel xOpt yOpt gB gC Rin nWSR s.

(** QProblem.cpp:823-843 *)
Definition p_getWorkingSetConstraints (s : qp) (ws : arr) : res arr :=
  for_up 0 (pC s) (fun i a =>
    v <- st_getStatus (p_cons s) i ;;
    wr a i (match v with ST_LOWER => nm1 | ST_UPPER => n1 | _ => n0 end)) ws.
(** QProblem.cpp:794-808 *)
Definition p_getWorkingSet (ws : option arr) (s : qp) : res (returnValue * option arr) :=
  match ws with
  | None => Ok (RET_INVALID_ARGUMENTS, None)
  | Some ws =>
      ws <- getWorkingSetBounds (p_b s) ws ;;
      ws <- at_off ws (pV s) (p_getWorkingSetConstraints s) ;;
      Ok (SUCCESSFUL_RETURN, Some ws)
  end.
End QP5.
