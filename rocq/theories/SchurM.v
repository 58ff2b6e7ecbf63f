(** SQProblemSchur.cpp: how the callers combine the updates of the Schur complement,
    and the solve with the updated KKT system.

    Simplifications: the number and kind of the update and its sparse columns
    are arguments here (they are computed from H, A and the index lists in lines
    743-791 and 1893-1995); a reset replaces the factorised matrix, so it
    carries the new solver.  Memory from new is an argument ([fresh], [fresh_p])
    of the solve, whose contents the theorems leave open. *)
From Verif Require Import Base Types Num LinAlg Schur.
Open Scope Z_scope.

Section SchurM.
Context {N : Num}.
Notation arr := (list N).
Notation schur := (Schur.schur N).

(** the sparse factorisation in use: dimension and solver *)
Record factor := mkFactor { f_dim : Z; f_solve : arr -> option arr }.
(** SAdd: lines 792/811 and 1217/1228 (probe = false), 1629-1681 and 1996-2051
    (probe = true); SDel: 715/811 and 1182/1228 (false), 1590/1688-1718 and
    1855/2058-2086 (true); SReset: 2994-3000 and 3112. *)
Inductive sop : Type :=
| SAdd (probe : bool) (number update : Z) (Mpos : list Z) (Mvals : arr) (Npos : list Z) (Nvals : arr) (N_diag : N)
| SDel (probe : bool) (idx : Z)
| SReset (f : factor).
Definition shrink (w : schur) : schur :=
  mkSchur (sc_max w) (sc_n w - 1) (sc_S w) (sc_Q w) (sc_R w) (sc_det w) (sc_jc w) (sc_ir w) (sc_mv w) (sc_idx w) (sc_typ w).
Definition run_sop (op : sop) (s : factor * schur) : res (factor * schur) :=
  let '(f, w) := s in
  match op with
  | SAdd probe number update Mp Mv Np Nv Nd =>
    '(r, w1) <- addToSchurComplement (f_solve f) (f_dim f) number update Mp Mv Np Nv Nd w ;;
    if r =r? SUCCESSFUL_RETURN then
      if probe then
        x <- calcDetSchur (-1) w1 ;;
        if sc_det w *' x >' n0 then Ok (f, shrink w1) else w2 <- updateSchurQR (-1) w1 ;; Ok (f, w2)
      else w2 <- updateSchurQR (-1) w1 ;; Ok (f, w2)
    else Ok (f, w1)
  | SDel probe idx =>
    '(_, w1) <- deleteFromSchurComplement idx probe w ;;
    if probe then
      x <- calcDetSchur idx w1 ;;
      if sc_det w *' x <' n0 then '(_, w2) <- undoDeleteFromSchurComplement idx w1 ;; Ok (f, w2)
      else w2 <- updateSchurQR idx w1 ;; Ok (f, w2)
    else w2 <- updateSchurQR idx w1 ;; Ok (f, w2)
  | SReset f' => w1 <- schur_reset w ;; Ok (f', w1)
  end.

(** Types.hpp: SchurUpdateType *)
Definition SUT_VarFixed := 0. Definition SUT_VarFreed := 1. Definition SUT_ConAdded := 2. Definition SUT_ConRemoved := 3.

(** the search loops of stepCalcBacksolveSchur; i is the first position of idx *)
Definition find_pos (l : list Z) (n idx : Z) : res (option Z) :=
  for_up 0 n (fun i r => match r with Some _ => Ok r | None => v <- rd l i ;; Ok (if v =? idx then Some i else None) end) None.
(** lines 2584-2620 *)
Definition step_q (w : schur) (FR : list Z) (nFR : Z) (AC : list Z) (nAC : Z) (tempA tempB fresh : arr) : res (bool * arr) :=
  for_up 0 (sc_n w) (fun ii st =>
    if negb (fst st) then Ok st else
    let q := snd st in
    idx <- rd (sc_idx w) ii ;; t <- rd (sc_typ w) ii ;;
    if (t =? SUT_VarFixed) || (t =? SUT_ConRemoved) then q <- wr q ii n0 ;; Ok (true, q)
    else if t =? SUT_VarFreed then
      f <- find_pos FR nFR idx ;;
      match f with Some i => v <- rd tempA i ;; q <- wr q ii (-' v) ;; Ok (true, q) | None => Ok (true, q) end
    else if t =? SUT_ConAdded then
      f <- find_pos AC nAC idx ;;
      match f with Some i => v <- rd tempB i ;; q <- wr q ii v ;; Ok (true, q) | None => Ok (true, q) end
    else Ok (false, q)) (true, fresh).
(** lines 2640-2667 *)
Definition step_transfer (w : schur) (FR : list Z) (nFR : Z) (AC : list Z) (nAC : Z) (p x y : arr) : res (bool * arr * arr) :=
  for_up 0 (sc_n w) (fun ii st =>
    let '(ok, x, y) := st in
    if negb ok then Ok st else
    idx <- rd (sc_idx w) ii ;; t <- rd (sc_typ w) ii ;;
    if (t =? SUT_VarFixed) || (t =? SUT_ConRemoved) then Ok (true, x, y)
    else if t =? SUT_VarFreed then
      f <- find_pos FR nFR idx ;;
      match f with Some i => v <- rd p ii ;; x <- wr x i v ;; Ok (true, x, y) | None => Ok (true, x, y) end
    else if t =? SUT_ConAdded then
      f <- find_pos AC nAC idx ;;
      match f with Some i => v <- rd p ii ;; y <- wr y i (-' v) ;; Ok (true, x, y) | None => Ok (true, x, y) end
    else Ok (false, x, y)) (true, x, y).
(** lines 2577-2675; x and y are delta_xFR_TMP and delta_yAC_TMP; the result of
    backsolveSchurQR is not looked at (line 2628) *)
Definition stepCalcBacksolveSchur (f : factor) (w : schur) (FR : list Z) (nFR : Z) (AC : list Z) (nAC : Z) (tempA tempB fresh fresh_p : arr) (rhs sol x y : arr)
    : res (returnValue * (arr * arr * arr * arr)) :=
  '(ok, q) <- step_q w FR nFR AC nAC tempA tempB fresh ;;
  if negb ok then Ok (RET_UNKNOWN_BUG, (rhs, sol, x, y)) else
  q <- computeMTransTimes w sol true q ;;
  '(_, p) <- backsolveSchurQR w (sc_n w) q 1 fresh_p ;;
  rhs' <- computeMTimes w p rhs ;;
  match f_solve f rhs' with
  | None => Ok (RET_MATRIX_FACTORISATION_FAILED, (rhs', sol, x, y))
  | Some sol' =>
    '(ok, x', y') <- step_transfer w FR nFR AC nAC p x y ;;
    Ok ((if ok then SUCCESSFUL_RETURN else RET_UNKNOWN_BUG), (rhs', sol', x', y'))
  end.
End SchurM.
Arguments factor : clear implicits.
Arguments sop : clear implicits.
