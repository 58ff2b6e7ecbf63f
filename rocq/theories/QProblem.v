(** Model of class QProblem (src/QProblem.cpp, include/qpOASES/QProblem.ipp).

    The simplifications of QProblemB.v apply here too.  In addition:
    - [new real_t[k]] with k < 0 (which cannot happen while the working set has
      at most nFR active constraints) is an empty array.
    - The member constraintProduct (a user supplied product routine) is not
      modelled: it is NULL. *)
From Verif Require Import Base Types Num Indexlist SubjectTo Options Flipper Utils Matrices LinAlg QProblemB.

(** Matrix is implemented by DenseMatrix, SparseMatrix and SparseMatrixRow
    (include/qpOASES/Matrices.hpp). *)
Inductive amat (N : Num) := ADense (A : denseM N) | ASparse (A : sparseM N) | ASprow (A : sprowM N).
Arguments ADense {N}. Arguments ASparse {N}. Arguments ASprow {N}.

(** QProblem.hpp:880-925 *)
Record qp (N : Num) := mkP {
  p_b : qpb N;   (* the QProblemB part; y has nV+nC entries *)
  p_A : option (amat N);   (* Matrix *A *)
  p_freeA : bool;   (* freeConstraintMatrix *)
  p_lbA : list N;
  p_ubA : list N;
  p_cons : subjectTo;   (* constraints *)
  p_T : list N;
  p_Q : list N;
  p_sizeT : Z;
  p_Ax : list N;
  p_Ax_l : list N;
  p_Ax_u : list N;
  p_tempA : list N;
  p_tempB : list N;
  p_ZFR : list N;   (* ZFR_delta_xFRz *)
  p_dxz : list N;   (* delta_xFRz *)
  p_dxy : list N;   (* delta_xFRy *)
  p_dyAC : list N   (* delta_yAC_TMP *)
}.
Arguments mkP {N}. Arguments p_b {N} _. Arguments p_A {N} _. Arguments p_freeA {N} _. Arguments p_lbA {N} _. Arguments p_ubA {N} _. Arguments p_cons {N} _. Arguments p_T {N} _. Arguments p_Q {N} _. Arguments p_sizeT {N} _. Arguments p_Ax {N} _. Arguments p_Ax_l {N} _. Arguments p_Ax_u {N} _. Arguments p_tempA {N} _. Arguments p_tempB {N} _. Arguments p_ZFR {N} _. Arguments p_dxz {N} _. Arguments p_dxy {N} _. Arguments p_dyAC {N} _.
Definition set_p_b {N : Num} (v : qpb N) (s : qp N) : qp N :=
  mkP v (p_A s) (p_freeA s) (p_lbA s) (p_ubA s) (p_cons s) (p_T s) (p_Q s) (p_sizeT s) (p_Ax s) (p_Ax_l s) (p_Ax_u s) (p_tempA s) (p_tempB s) (p_ZFR s) (p_dxz s) (p_dxy s) (p_dyAC s).
Definition set_p_A {N : Num} (v : option (amat N)) (s : qp N) : qp N :=
  mkP (p_b s) v (p_freeA s) (p_lbA s) (p_ubA s) (p_cons s) (p_T s) (p_Q s) (p_sizeT s) (p_Ax s) (p_Ax_l s) (p_Ax_u s) (p_tempA s) (p_tempB s) (p_ZFR s) (p_dxz s) (p_dxy s) (p_dyAC s).
Definition set_p_freeA {N : Num} (v : bool) (s : qp N) : qp N :=
  mkP (p_b s) (p_A s) v (p_lbA s) (p_ubA s) (p_cons s) (p_T s) (p_Q s) (p_sizeT s) (p_Ax s) (p_Ax_l s) (p_Ax_u s) (p_tempA s) (p_tempB s) (p_ZFR s) (p_dxz s) (p_dxy s) (p_dyAC s).
Definition set_p_lbA {N : Num} (v : list N) (s : qp N) : qp N :=
  mkP (p_b s) (p_A s) (p_freeA s) v (p_ubA s) (p_cons s) (p_T s) (p_Q s) (p_sizeT s) (p_Ax s) (p_Ax_l s) (p_Ax_u s) (p_tempA s) (p_tempB s) (p_ZFR s) (p_dxz s) (p_dxy s) (p_dyAC s).
Definition set_p_ubA {N : Num} (v : list N) (s : qp N) : qp N :=
  mkP (p_b s) (p_A s) (p_freeA s) (p_lbA s) v (p_cons s) (p_T s) (p_Q s) (p_sizeT s) (p_Ax s) (p_Ax_l s) (p_Ax_u s) (p_tempA s) (p_tempB s) (p_ZFR s) (p_dxz s) (p_dxy s) (p_dyAC s).
Definition set_p_cons {N : Num} (v : subjectTo) (s : qp N) : qp N :=
  mkP (p_b s) (p_A s) (p_freeA s) (p_lbA s) (p_ubA s) v (p_T s) (p_Q s) (p_sizeT s) (p_Ax s) (p_Ax_l s) (p_Ax_u s) (p_tempA s) (p_tempB s) (p_ZFR s) (p_dxz s) (p_dxy s) (p_dyAC s).
Definition set_p_T {N : Num} (v : list N) (s : qp N) : qp N :=
  mkP (p_b s) (p_A s) (p_freeA s) (p_lbA s) (p_ubA s) (p_cons s) v (p_Q s) (p_sizeT s) (p_Ax s) (p_Ax_l s) (p_Ax_u s) (p_tempA s) (p_tempB s) (p_ZFR s) (p_dxz s) (p_dxy s) (p_dyAC s).
Definition set_p_Q {N : Num} (v : list N) (s : qp N) : qp N :=
  mkP (p_b s) (p_A s) (p_freeA s) (p_lbA s) (p_ubA s) (p_cons s) (p_T s) v (p_sizeT s) (p_Ax s) (p_Ax_l s) (p_Ax_u s) (p_tempA s) (p_tempB s) (p_ZFR s) (p_dxz s) (p_dxy s) (p_dyAC s).
Definition set_p_sizeT {N : Num} (v : Z) (s : qp N) : qp N :=
  mkP (p_b s) (p_A s) (p_freeA s) (p_lbA s) (p_ubA s) (p_cons s) (p_T s) (p_Q s) v (p_Ax s) (p_Ax_l s) (p_Ax_u s) (p_tempA s) (p_tempB s) (p_ZFR s) (p_dxz s) (p_dxy s) (p_dyAC s).
Definition set_p_Ax {N : Num} (v : list N) (s : qp N) : qp N :=
  mkP (p_b s) (p_A s) (p_freeA s) (p_lbA s) (p_ubA s) (p_cons s) (p_T s) (p_Q s) (p_sizeT s) v (p_Ax_l s) (p_Ax_u s) (p_tempA s) (p_tempB s) (p_ZFR s) (p_dxz s) (p_dxy s) (p_dyAC s).
Definition set_p_Ax_l {N : Num} (v : list N) (s : qp N) : qp N :=
  mkP (p_b s) (p_A s) (p_freeA s) (p_lbA s) (p_ubA s) (p_cons s) (p_T s) (p_Q s) (p_sizeT s) (p_Ax s) v (p_Ax_u s) (p_tempA s) (p_tempB s) (p_ZFR s) (p_dxz s) (p_dxy s) (p_dyAC s).
Definition set_p_Ax_u {N : Num} (v : list N) (s : qp N) : qp N :=
  mkP (p_b s) (p_A s) (p_freeA s) (p_lbA s) (p_ubA s) (p_cons s) (p_T s) (p_Q s) (p_sizeT s) (p_Ax s) (p_Ax_l s) v (p_tempA s) (p_tempB s) (p_ZFR s) (p_dxz s) (p_dxy s) (p_dyAC s).
Definition set_p_tempA {N : Num} (v : list N) (s : qp N) : qp N :=
  mkP (p_b s) (p_A s) (p_freeA s) (p_lbA s) (p_ubA s) (p_cons s) (p_T s) (p_Q s) (p_sizeT s) (p_Ax s) (p_Ax_l s) (p_Ax_u s) v (p_tempB s) (p_ZFR s) (p_dxz s) (p_dxy s) (p_dyAC s).
Definition set_p_tempB {N : Num} (v : list N) (s : qp N) : qp N :=
  mkP (p_b s) (p_A s) (p_freeA s) (p_lbA s) (p_ubA s) (p_cons s) (p_T s) (p_Q s) (p_sizeT s) (p_Ax s) (p_Ax_l s) (p_Ax_u s) (p_tempA s) v (p_ZFR s) (p_dxz s) (p_dxy s) (p_dyAC s).
Definition set_p_ZFR {N : Num} (v : list N) (s : qp N) : qp N :=
  mkP (p_b s) (p_A s) (p_freeA s) (p_lbA s) (p_ubA s) (p_cons s) (p_T s) (p_Q s) (p_sizeT s) (p_Ax s) (p_Ax_l s) (p_Ax_u s) (p_tempA s) (p_tempB s) v (p_dxz s) (p_dxy s) (p_dyAC s).
Definition set_p_dxz {N : Num} (v : list N) (s : qp N) : qp N :=
  mkP (p_b s) (p_A s) (p_freeA s) (p_lbA s) (p_ubA s) (p_cons s) (p_T s) (p_Q s) (p_sizeT s) (p_Ax s) (p_Ax_l s) (p_Ax_u s) (p_tempA s) (p_tempB s) (p_ZFR s) v (p_dxy s) (p_dyAC s).
Definition set_p_dxy {N : Num} (v : list N) (s : qp N) : qp N :=
  mkP (p_b s) (p_A s) (p_freeA s) (p_lbA s) (p_ubA s) (p_cons s) (p_T s) (p_Q s) (p_sizeT s) (p_Ax s) (p_Ax_l s) (p_Ax_u s) (p_tempA s) (p_tempB s) (p_ZFR s) (p_dxz s) v (p_dyAC s).
Definition set_p_dyAC {N : Num} (v : list N) (s : qp N) : qp N :=
  mkP (p_b s) (p_A s) (p_freeA s) (p_lbA s) (p_ubA s) (p_cons s) (p_T s) (p_Q s) (p_sizeT s) (p_Ax s) (p_Ax_l s) (p_Ax_u s) (p_tempA s) (p_tempB s) (p_ZFR s) (p_dxz s) (p_dxy s) v.

Section QProblem.
Context {N : Num}.
Notation arr := (list N).
Notation qpb := (qpb N).
Notation qp := (qp N).
Variable junk : Z -> arr.

(** virtual functions of Matrix *)
Definition a_getRow (M : amat N) r ic alpha (row : arr) : res arr :=
  match M with ADense A => d_getRow A r ic alpha row | ASparse A => s_getRow A r ic alpha row | ASprow A => r_getRow A r ic alpha row end.
Definition a_getCol (M : amat N) c ir alpha (col : arr) : res arr :=
  match M with ADense A => d_getCol A c ir alpha col | ASparse A => s_getCol A c ir alpha col | ASprow A => r_getCol A c (Some ir) alpha col end.
Definition a_times (M : amat N) xN alpha (x : arr) xLD beta (y : arr) yLD : res arr :=
  match M with ADense A => d_times A xN alpha x xLD beta y yLD | ASparse A => s_times A xN alpha x xLD beta y yLD
  | ASprow A => r_times A xN alpha x xLD beta y yLD end.
Definition a_transTimes (M : amat N) xN alpha (x : arr) xLD beta (y : arr) yLD : res arr :=
  match M with ADense A => d_transTimes A xN alpha x xLD beta y yLD | ASparse A => s_transTimes A xN alpha x xLD beta y yLD
  | ASprow A => r_transTimes A xN alpha x xLD beta y yLD end.
Definition a_times_idx (M : amat N) ir ic xN alpha (x : arr) xLD beta (y : arr) yLD : res arr :=
  match M with
  | ADense A => d_times_idx A ir (Some ic) xN alpha x xLD beta y yLD true
  | ASparse A => s_times_idx A ir (Some ic) xN alpha x xLD beta y yLD true
  | ASprow A => r_times_idx A ir (Some ic) xN alpha x xLD beta y yLD true
  end.
Definition a_transTimes_idx (M : amat N) ir ic xN alpha (x : arr) xLD beta (y : arr) yLD : res arr :=
  match M with
  | ADense A => d_transTimes_idx A ir ic xN alpha x xLD beta y yLD
  | ASparse A => s_transTimes_idx A ir ic xN alpha x xLD beta y yLD
  | ASprow A => r_transTimes_idx A ir ic xN alpha x xLD beta y yLD
  end.
(** dereferencing A *)
Definition p_theA (s : qp) : res (amat N) := match p_A s with Some M => Ok M | None => UB end.

(** members of the base class *)
Definition up_b (f : qpb -> qpb) (s : qp) : qp := set_p_b (f (p_b s)) s.
Definition p_bounds (s : qp) : subjectTo := q_bounds (p_b s).
Definition p_opts (s : qp) : options N := q_opts (p_b s).
Definition p_free (s : qp) : indexlist := st_ina (p_bounds s).
Definition p_fixed (s : qp) : indexlist := st_act (p_bounds s).
Definition p_active (s : qp) : indexlist := st_act (p_cons s).
Definition p_inactive (s : qp) : indexlist := st_ina (p_cons s).
Definition p_FR (s : qp) : list Z := il_number (p_free s).
Definition p_FX (s : qp) : list Z := il_number (p_fixed s).
Definition p_AC (s : qp) : list Z := il_number (p_active s).
Definition p_IAC (s : qp) : list Z := il_number (p_inactive s).

(** QProblem.ipp:47-98, QProblemB.ipp:64-94, QProblem.cpp:849-853 *)
Definition pV (s : qp) : Z := st_n (p_bounds s).
Definition pC (s : qp) : Z := st_n (p_cons s).
Definition pFR (s : qp) : Z := st_nIna (p_bounds s).
Definition pFX (s : qp) : Z := st_nAct (p_bounds s).
Definition pAC (s : qp) : Z := st_nAct (p_cons s).
Definition pIAC (s : qp) : Z := st_nIna (p_cons s).
Definition pZ (s : qp) : Z := pFR s - pAC s.

(** QProblem.cpp:2169-2193.  QQ(i,j) = Q[i+nV*j], TT(i,j) = T[i*sizeT+j]
    (Types.hpp:144-147) *)
Definition setupTQfactorisation (s : qp) : res (returnValue * qp) :=
  let n := pV s in
  Q <- for_up 0 (n * n) (fun i Q => wr Q i n0) (p_Q s) ;;
  Q <- for_up 0 (pFR s) (fun i Q => ii <- rd (p_FR s) i ;; wr Q (ii + n * i) n1) Q ;;
  T <- for_up 0 (p_sizeT s * p_sizeT s) (fun i T => wr T i n0) (p_T s) ;;
  Ok (SUCCESSFUL_RETURN, set_p_T T (set_p_Q Q s)).

(** QProblem.cpp:4518-4565 *)
Definition backsolveT (s : qp) (b : arr) (transposed : bool) (a : arr) : res (returnValue * arr) :=
  let nT := pAC s in
  let sT := p_sizeT s in
  let tcol := sT - nT in
  if nT <=? 0 then Ok (SUCCESSFUL_RETURN, a) else
  c <- forb_up 0 nT (fun i a =>
         sum <- rd b i ;;
         sum <- for_up 0 i (fun j sum =>
                  t <- rd (p_T s) (if transposed then (nT - 1 - j) * sT + (tcol + i) else i * sT + (sT - 1 - j)) ;;
                  v <- rd a (nT - 1 - j) ;; Ok (sum -' t *' v)) sum ;;
         t <- rd (p_T s) (if transposed then (nT - 1 - i) * sT + (tcol + i) else i * sT + (sT - 1 - i)) ;;
         if nabs t >' nEPS then a <- wr a (nT - 1 - i) (sum /' t) ;; Ok (Next a)
         else Ok (Brk a)) a ;;
  Ok (match c with Next a => (SUCCESSFUL_RETURN, a) | Brk a => (RET_DIV_BY_ZERO, a) end).

(** the overloads of backsolveR with the dimension getNZ() of QProblem *)
Definition p_backsolveR (s : qp) (b : option arr) (transposed removing : bool) (a : arr) : res (returnValue * arr) :=
  backsolveR (pV s) (if removing then pZ s - 1 else pZ s) (q_R (p_b s)) b transposed a.

(** ** Rotations of two columns *)
(** columns 1+p and p of Q on the first m free variables (QProblem.cpp:2921-2925 etc.) *)
Definition rotQ (n : Z) (FR : list Z) (m : Z) (c sn : N) (p : Z) (Q : arr) : res arr :=
  for_up 0 m (fun i Q =>
    ii <- rd FR i ;;
    x <- rd Q (ii + n * (1 + p)) ;; y <- rd Q (ii + n * p) ;;
    let '(x', y') := applyGivens c sn x y in
    Q <- wr Q (ii + n * (1 + p)) x' ;; wr Q (ii + n * p) y') Q.
(** columns 1+p and p of R, rows 0..m-1 *)
Definition rotR (n m : Z) (c sn : N) (p : Z) (R : arr) : res arr :=
  for_up 0 m (fun i R =>
    x <- rd R (i + n * (1 + p)) ;; y <- rd R (i + n * p) ;;
    let '(x', y') := applyGivens c sn x y in
    R <- wr R (i + n * (1 + p)) x' ;; wr R (i + n * p) y') R.

(** one rotation annihilating w[j] *)
Definition pivot (j : Z) (w : arr) : res (arr * N * N) :=
  x <- rd w (j + 1) ;; y <- rd w j ;;
  let '(x', y', c, sn) := computeGivens x y in
  w <- wr w (j + 1) x' ;; w <- wr w j y' ;; Ok (w, c, sn).

(** QProblem.cpp:2914-2932, 3394-3412 *)
Definition zRotations (n : Z) (FR : list Z) (nfr nz : Z) (upd : bool) (w Q R : arr) : res (arr * arr * arr) :=
  for_up 0 (nz - 1) (fun j '(w, Q, R) =>
    '(w, c, sn) <- pivot j w ;;
    Q <- rotQ n FR nfr c sn j Q ;;
    R <- (if upd then rotR n (j + 2) c sn j R else Ok R) ;;
    Ok (w, Q, R)) (w, Q, R).

(** QProblem.cpp:2938-2954, 3461-3477 *)
Definition restoreR (n nz : Z) (R : arr) : res arr :=
  R <- for_up 0 (nz - 1) (fun i R =>
         x <- rd R (i + n * i) ;; y <- rd R (1 + i + n * i) ;;
         let '(x', y', c, sn) := computeGivens x y in
         R <- wr R (i + n * i) x' ;; R <- wr R (1 + i + n * i) y' ;;
         for_up (1 + i) (nz - 1) (fun j R =>
           p <- rd R (i + n * j) ;; q <- rd R (1 + i + n * j) ;;
           let '(p', q') := applyGivens c sn p q in
           R <- wr R (i + n * j) p' ;; wr R (1 + i + n * j) q') R) R ;;
  for_up 0 nz (fun i R => wr R (i + n * (nz - 1)) n0) R.

(** ** Additions to the working set, without the test for linear independence *)
(** QProblem.cpp:2870-2968 *)
Definition addConstraint_update (number : Z) (C_status : SubjectToStatus) (updateCholesky : bool) (s : qp)
  : res (returnValue * qp) :=
  let n := pV s in
  let nfr := pFR s in let nac := pAC s in let nz := pZ s in
  let sT := p_sizeT s in
  let tcol := sT - nac in
  let FR := p_FR s in
  let upd := updateCholesky && plainH (p_b s) in
  A <- p_theA s ;;
  aFR <- a_getRow A number (Some (p_free s)) n1 (junk nfr) ;;
  wZ <- for_up 0 nfr (fun i w =>
          ii <- rd FR i ;; a <- rd aFR i ;;
          for_up 0 nz (fun j w => v <- rd w j ;; q <- rd (p_Q s) (ii + n * j) ;; wr w j (v +' a *' q)) w) (zeros nz) ;;
  T <- (if 0 <? nac then
          T <- for_up 0 nac (fun j T => wr T (nac * sT + (tcol + j)) n0) (p_T s) ;;
          for_up 0 nfr (fun i T =>
            ii <- rd FR i ;; a <- rd aFR i ;;
            for_up 0 nac (fun j T =>
              v <- rd T (nac * sT + (tcol + j)) ;; q <- rd (p_Q s) (ii + n * (nz + j)) ;;
              wr T (nac * sT + (tcol + j)) (v +' a *' q)) T) T
        else Ok (p_T s)) ;;
  '(T, Q, R) <- (if 0 <? nz then
      '(w, Q, R) <- zRotations n FR nfr nz upd wZ (p_Q s) (q_R (p_b s)) ;;
      v <- rd w (nz - 1) ;;
      T <- wr T (nac * sT + (tcol - 1)) v ;;
      R <- (if upd then restoreR n nz R else Ok R) ;;
      Ok (T, Q, R)
    else Ok (T, p_Q s, q_R (p_b s))) ;;
  '(r, c) <- st_activate (p_cons s) number C_status ;;
  let s := set_p_cons c (set_p_T T (set_p_Q Q (up_b (set_q_R R) s))) in
  Ok (if r =r? SUCCESSFUL_RETURN then SUCCESSFUL_RETURN else RET_ADDCONSTRAINT_FAILED, s).

(** rotation of column p of T against the column kept in tmp, rows lo..nac-1
    (QProblem.cpp:3436, 3450-3451): TT(i,p), tmp[i] -> tmp[i], TT(i,p) *)
Definition rotT_out (sT lo nac : Z) (c sn : N) (p : Z) (T tmp : arr) : res (arr * arr) :=
  for_up lo nac (fun i '(T, tmp) =>
    x <- rd T (i * sT + p) ;; y <- rd tmp i ;;
    let '(x', y') := applyGivens c sn x y in
    tmp <- wr tmp i x' ;; T <- wr T (i * sT + p) y' ;; Ok (T, tmp)) (T, tmp).

(** QProblem.cpp:3361-3484 *)
Definition addBound_update (number : Z) (B_status : SubjectToStatus) (updateCholesky : bool) (s : qp)
  : res (returnValue * qp) :=
  let n := pV s in
  let nfr := pFR s in let nac := pAC s in let nz := pZ s in
  let sT := p_sizeT s in
  let tcol := sT - nac in
  let upd := updateCholesky && plainH (p_b s) in
  last <- il_getLastNumber (p_free s) ;;
  s <- (if negb (last =? number) then '(_, b) <- st_swapFree (p_bounds s) number last ;; Ok (up_b (set_q_bounds b) s) else Ok s) ;;
  let FR := p_FR s in
  ll <- rd FR (nfr - 1) ;;
  w <- for_up 0 nfr (fun i w => v <- rd (p_Q s) (ll + n * i) ;; wr w i v) (junk nfr) ;;
  '(w, Q, R) <- zRotations n FR nfr nz upd w (p_Q s) (q_R (p_b s)) ;;
  '(Q, T) <- (if 0 <? nac then
      let j := nz - 1 in
      '(w, c, sn) <- pivot j w ;;
      Q <- rotQ n FR nfr c sn j Q ;;
      '(T, tmp) <- rotT_out sT (nac - 1) nac c sn tcol (p_T s) (zeros nac) ;;
      '(_, Q, T, _) <- for_up nz (nfr - 1) (fun j '(w, Q, T, tmp) =>
          '(w, c, sn) <- pivot j w ;;
          Q <- rotQ n FR nfr c sn j Q ;;
          '(T, tmp) <- rotT_out sT (nfr - 2 - j) nac c sn (1 + tcol - nz + j) T tmp ;;
          Ok (w, Q, T, tmp)) (w, Q, T, tmp) ;;
      Ok (Q, T)
    else Ok (Q, p_T s)) ;;
  R <- (if upd then restoreR n nz R else Ok R) ;;
  let s := set_p_T T (set_p_Q Q (up_b (set_q_R R) s)) in
  '(r, b) <- st_activate (p_bounds s) number B_status ;;
  Ok (if r =r? SUCCESSFUL_RETURN then SUCCESSFUL_RETURN else RET_ADDBOUND_FAILED, up_b (set_q_bounds b) s).

(** QProblem.cpp:2830-2842, 3788-3794 etc. *)
Definition p_noUpdate (s : qp) : bool := noUpdate (p_b s).
(** the consistency checks QProblem.cpp:2826-2842 and 3313-3327 *)
Definition addConstraint_check (number : Z) (s : qp) : res (option returnValue) :=
  v <- st_getStatus (p_cons s) number ;;
  if negb (is_sts v ST_INACTIVE) then Ok (Some RET_CONSTRAINT_ALREADY_ACTIVE) else
  nuc <- st_getNumberOfType (p_cons s) ST_UNBOUNDED ;;
  if pC s - pAC s =? nuc then Ok (Some RET_ALL_CONSTRAINTS_ACTIVE) else
  Ok (if p_noUpdate s then Some RET_UNKNOWN_BUG else None).
Definition addBound_check (number : Z) (s : qp) : res (option returnValue) :=
  v <- st_getStatus (p_bounds s) number ;;
  if negb (is_sts v ST_INACTIVE) then Ok (Some RET_BOUND_ALREADY_ACTIVE) else
  nuv <- st_getNumberOfType (p_bounds s) ST_UNBOUNDED ;;
  if pFR s =? nuv then Ok (Some RET_ALL_BOUNDS_ACTIVE) else
  Ok (if p_noUpdate s then Some RET_UNKNOWN_BUG else None).
(** addConstraint and addBound with ensureLI = BT_FALSE *)
Definition addConstraint0 (number : Z) (C_status : SubjectToStatus) (upd : bool) (s : qp) : res (returnValue * qp) :=
  c <- addConstraint_check number s ;;
  match c with Some r => Ok (r, s) | None => addConstraint_update number C_status upd s end.
Definition addBound0 (number : Z) (B_status : SubjectToStatus) (upd : bool) (s : qp) : res (returnValue * qp) :=
  c <- addBound_check number s ;;
  match c with Some r => Ok (r, s) | None => addBound_update number B_status upd s end.

(** ** Removals from the working set *)
(** an exchange found by ensureNonzeroCurvature: bound (true) or constraint
    (false), index, status *)
Definition exchange := option (bool * Z * SubjectToStatus).
Definition addExchange (e : bool * Z * SubjectToStatus) (s : qp) : res (returnValue * qp) :=
  let '(isBound, idx, v) := e in
  '(_, s) <- (if isBound then addBound0 idx v true s else addConstraint0 idx v true s) ;; Ok (SUCCESSFUL_RETURN, s).

(** flipper.set( &bounds,R,&constraints,Q,T ) *)
Definition p_save (s : qp) : res qp :=
  f <- fl_set junk (q_flip (p_b s)) (Some (p_bounds s)) (Some (q_R (p_b s))) (Some (p_cons s)) (Some (p_Q s)) (Some (p_T s)) ;;
  Ok (up_b (set_q_flip f) s).
(** flipper.get( &bounds,R,&constraints,Q,T ) *)
Definition p_restore (s : qp) : res qp :=
  '(b, R, c, Q, T) <- fl_get (q_flip (p_b s)) (Some (p_bounds s)) (Some (q_R (p_b s))) (Some (p_cons s)) (Some (p_Q s)) (Some (p_T s)) ;;
  match b, R, c, Q, T with
  | Some b, Some R, Some c, Some Q, Some T => Ok (set_p_T T (set_p_Q Q (set_p_cons c (up_b (fun q => set_q_R R (set_q_bounds b q)) s))))
  | _, _, _, _, _ => UB
  end.

(** QProblem.cpp:3834-3873 *)
Definition removeRowT (n : Z) (FR : list Z) (nfr nac nz sT k : Z) (Q T : arr) : res (arr * arr) :=
  let tcol := sT - nac in
  if k <? nac - 1 then
    T <- for_up (k + 1) nac (fun i T =>
           for_up (nac - i - 1) nac (fun j T => v <- rd T (i * sT + (tcol + j)) ;; wr T ((i - 1) * sT + (tcol + j)) v) T) T ;;
    T <- for_up 0 nac (fun j T => wr T ((nac - 1) * sT + (tcol + j)) n0) T ;;
    for_dn (nac - 2 - k) (-1) (fun j '(Q, T) =>
      let r := nac - 2 - j in
      x <- rd T (r * sT + (tcol + 1 + j)) ;; y <- rd T (r * sT + (tcol + j)) ;;
      let '(x', y', c, sn) := computeGivens x y in
      T <- wr T (r * sT + (tcol + 1 + j)) x' ;; T <- wr T (r * sT + (tcol + j)) y' ;;
      T <- for_up (nac - j - 1) (nac - 1) (fun i T =>
             x <- rd T (i * sT + (tcol + 1 + j)) ;; y <- rd T (i * sT + (tcol + j)) ;;
             let '(x', y') := applyGivens c sn x y in
             T <- wr T (i * sT + (tcol + 1 + j)) x' ;; wr T (i * sT + (tcol + j)) y') T ;;
      Q <- rotQ n FR nfr c sn (nz + j) Q ;;
      Ok (Q, T)) (Q, T)
  else
    T <- for_up 0 nac (fun j T => wr T ((nac - 1) * sT + (tcol + j)) n0) T ;; Ok (Q, T).

(** QProblem.cpp:3938-3952 *)
Definition flipConstraint (number : Z) (s : qp) : res (returnValue * qp) :=
  s <- p_restore s ;;
  '(_, c) <- st_flipFixed KConstraints (p_cons s) number ;;
  let s := set_p_cons c s in
  v <- st_getStatus c number ;;
  match v with
  | ST_LOWER =>
      u <- rd (p_ubA s) number ;; lbA <- wr (p_lbA s) number u ;;
      a <- rd (p_Ax_u s) number ;; Axl <- wr (p_Ax_l s) number (-' a) ;;
      Ok (SUCCESSFUL_RETURN, set_p_lbA lbA (set_p_Ax_l Axl s))
  | ST_UPPER =>
      l <- rd (p_lbA s) number ;; ubA <- wr (p_ubA s) number l ;;
      a <- rd (p_Ax_l s) number ;; Axu <- wr (p_Ax_u s) number (-' a) ;;
      Ok (SUCCESSFUL_RETURN, set_p_ubA ubA (set_p_Ax_u Axu s))
  | _ => Ok (RET_MOVING_BOUND_FAILED, s)
  end.

(** What a removal does with the new diagonal entry rho2 (QProblem.cpp:3928-3976,
    4172-4223) *)
Inductive newdiag := DKeep (R : list N) | DFlip | DBad | DNone.
Definition storeRho (n nz : Z) (o : options N) (allowFlip exch : bool) (rho2 : N) (R : arr) : res newdiag :=
  if o_enableFlippingBounds o && allowFlip && negb exch then
    if rho2 >' o_epsFlipping o then R <- wr R (nz + n * nz) (nsqrt rho2) ;; Ok (DKeep R) else Ok DFlip
  else if negb exch then
    if rho2 >' nZERO then R <- wr R (nz + n * nz) (nsqrt rho2) ;; Ok (DKeep R)
    else if negb allowFlip then R <- wr R (nz + n * nz) (nlit 1 2 *' nEPS) ;; Ok (DKeep R)
    else Ok DBad
  else Ok DNone.

(** QProblem.cpp:3782-4012 after the zero curvature test, whose outcome is [e] *)
Definition removeConstraint_update (number k : Z) (updateCholesky allowFlip : bool) (e : exchange) (s : qp) : res (returnValue * qp) :=
  let n := pV s in
  let nfr := pFR s in let nac := pAC s in let nz := pZ s in
  let o := p_opts s in
  let exch := match e with Some _ => true | None => false end in
  s <- (if o_enableFlippingBounds o && allowFlip && negb exch then p_save s else Ok s) ;;
  '(Q, T) <- removeRowT n (p_FR s) nfr nac nz (p_sizeT s) k (p_Q s) (p_T s) ;;
  let s := set_p_T T (set_p_Q Q s) in
  let move (s : qp) : res (returnValue * qp) :=
    '(r, c) <- st_deactivate (p_cons s) number ;;
    let s := set_p_cons c s in
    if negb (r =r? SUCCESSFUL_RETURN) then Ok (RET_REMOVECONSTRAINT_FAILED, s) else
    match e with
    | None => Ok (SUCCESSFUL_RETURN, s)
    | Some e => R <- wr (q_R (p_b s)) (nz + n * nz) n0 ;; addExchange e (up_b (set_q_R R) s)
    end in
  if updateCholesky && plainH (p_b s) then
    z <- for_up 0 nfr (fun j z => jj <- rd (p_FR s) j ;; v <- rd (p_Q s) (jj + n * nz) ;; wr z j v) (junk nfr) ;;
    M <- q_theH (p_b s) ;;
    Hz <- m_times_idx M (p_free s) (p_free s) 1 n1 z nfr n0 (junk nfr) nfr ;;
    c <- (if 0 <? nz then
            ZHz <- for_up 0 nfr (fun j a =>
                     jj <- rd (p_FR s) j ;; h <- rd Hz j ;;
                     for_up 0 nz (fun i a => v <- rd a i ;; q <- rd (p_Q s) (jj + n * i) ;; wr a i (v +' q *' h)) a) (zeros nz) ;;
            '(rv, r) <- p_backsolveR s (Some ZHz) true false (junk nz) ;;
            if negb (rv =r? SUCCESSFUL_RETURN) then Ok (Brk tt) else
            rho2 <- for_up 0 nz (fun i rho2 => v <- rd r i ;; Ok (rho2 -' v *' v)) n0 ;;
            R <- for_up 0 nz (fun i R => v <- rd r i ;; wr R (i + n * nz) v) (q_R (p_b s)) ;;
            Ok (Next (rho2, R))
          else Ok (Next (n0, q_R (p_b s)))) ;;
    match c with
    | Brk _ => Ok (RET_REMOVECONSTRAINT_FAILED, s)
    | Next (rho2, R) =>
        rho2 <- for_up 0 nfr (fun j rho2 => jj <- rd (p_FR s) j ;; q <- rd (p_Q s) (jj + n * nz) ;; h <- rd Hz j ;; Ok (rho2 +' q *' h)) rho2 ;;
        let s := up_b (set_q_R R) s in
        d <- storeRho n nz o allowFlip exch rho2 R ;;
        match d with
        | DKeep R => move (up_b (set_q_R R) s)
        | DFlip => flipConstraint number (up_b (set_q_htype HST_SEMIDEF) s)
        | DBad => Ok (RET_HESSIAN_NOT_SPD, up_b (set_q_htype HST_SEMIDEF) s)
        | DNone => move s
        end
    end
  else move s.

(** QProblem.cpp:4187-4208 *)
Definition p_flipBound (number : Z) (s : qp) : res (returnValue * qp) :=
  s <- p_restore s ;;
  '(_, b) <- st_flipFixed KBounds (p_bounds s) number ;;
  let s := up_b (set_q_bounds b) s in
  v <- st_getStatus b number ;;
  match v with
  | ST_LOWER => u <- rd (q_ub (p_b s)) number ;; lb <- wr (q_lb (p_b s)) number u ;; Ok (SUCCESSFUL_RETURN, up_b (set_q_lb lb) s)
  | ST_UPPER => l <- rd (q_lb (p_b s)) number ;; ub <- wr (q_ub (p_b s)) number l ;; Ok (SUCCESSFUL_RETURN, up_b (set_q_ub ub) s)
  | _ => Ok (RET_MOVING_BOUND_FAILED, s)
  end.

(** QProblem.cpp:4072-4112: append a unit vector to Q and the column A(:,number)
    to T; [FR] already contains the new variable at position nfr *)
Definition appendColT (n : Z) (FR : list Z) (nfr nac nz sT : Z) (acol Q T : arr) : res (arr * arr) :=
  let tcol := sT - nac in
  '(_, Q, T) <- for_dn (nac - 1) (-1) (fun j '(tmp, Q, T) =>
      let r := nac - 1 - j in
      x <- rd tmp r ;; y <- rd T (r * sT + (tcol + j)) ;;
      let '(x', y', c, sn) := computeGivens x y in
      T <- wr T (r * sT + (tcol + j)) x' ;; tmp <- wr tmp r y' ;;
      '(tmp, T) <- for_up (nac - j) nac (fun i '(tmp, T) =>
          x <- rd tmp i ;; y <- rd T (i * sT + (tcol + j)) ;;
          let '(x', y') := applyGivens c sn x y in
          T <- wr T (i * sT + (tcol + j)) x' ;; tmp <- wr tmp i y' ;; Ok (tmp, T)) (tmp, T) ;;
      Q <- rotQ n FR (nfr + 1) c sn (nz + j) Q ;;
      Ok (tmp, Q, T)) (acol, Q, T) ;;
  Ok (Q, T).

(** QProblem.cpp:4018-4250 after the zero curvature test, whose outcome is [e] *)
Definition removeBound_update (number : Z) (updateCholesky allowFlip : bool) (e : exchange) (s : qp) : res (returnValue * qp) :=
  let n := pV s in
  let nfr := pFR s in let nac := pAC s in let nz := pZ s in
  let o := p_opts s in
  let exch := match e with Some _ => true | None => false end in
  s <- (if o_enableFlippingBounds o && allowFlip && negb exch then p_save s else Ok s) ;;
  '(r, b) <- st_deactivate (p_bounds s) number ;;
  let s := up_b (set_q_bounds b) s in
  if negb (r =r? SUCCESSFUL_RETURN) then Ok (RET_REMOVEBOUND_FAILED, s) else
  let FR := p_FR s in
  nn <- rd FR nfr ;;
  Q <- for_up 0 nfr (fun i Q => ii <- rd FR i ;; Q <- wr Q (ii + n * nfr) n0 ;; wr Q (nn + n * i) n0) (p_Q s) ;;
  Q <- wr Q (nn + n * nfr) n1 ;;
  '(Q, T) <- (if 0 <? nac then
      A <- p_theA s ;;
      tmp <- a_getCol A number (p_active s) n1 (junk nac) ;;
      appendColT n FR nfr nac nz (p_sizeT s) tmp Q (p_T s)
    else Ok (Q, p_T s)) ;;
  let s := set_p_T T (set_p_Q Q s) in
  if updateCholesky && plainH (p_b s) then
    z2 <- rd Q (nn + n * nz) ;;
    M <- q_theH (p_b s) ;;
    h <- m_diag M nn ;;
    let rho2 := h *' z2 *' z2 in
    c <- (if 0 <? nfr then
            z <- for_up 0 nfr (fun j z => jj <- rd FR j ;; v <- rd Q (jj + n * nz) ;; wr z j v) (junk (nfr + 1)) ;;
            z <- wr z nfr n0 ;;
            Hz <- m_times_idx M (p_free s) (p_free s) 1 n1 z (nfr + 1) n0 (junk (nfr + 1)) (nfr + 1) ;;
            z <- m_getCol M nn (p_free s) n1 z ;;
            c <- (if 0 <? nz then
                    rhs <- for_up 0 nfr (fun j a =>
                             jj <- rd FR j ;; hj <- rd Hz j ;; zj <- rd z j ;;
                             for_up 0 nz (fun i a => v <- rd a i ;; q <- rd Q (jj + n * i) ;; wr a i (v +' q *' (hj +' z2 *' zj))) a) (zeros nz) ;;
                    '(rv, r) <- p_backsolveR s (Some rhs) true true (junk nz) ;;
                    if negb (rv =r? SUCCESSFUL_RETURN) then Ok (Brk tt) else
                    rho2 <- for_up 0 nz (fun i rho2 => v <- rd r i ;; Ok (rho2 -' v *' v)) rho2 ;;
                    R <- for_up 0 nz (fun i R => v <- rd r i ;; wr R (i + n * nz) v) (q_R (p_b s)) ;;
                    Ok (Next (rho2, R))
                  else Ok (Next (rho2, q_R (p_b s)))) ;;
            match c with
            | Brk u => Ok (Brk u)
            | Next (rho2, R) =>
                rho2 <- for_up 0 nfr (fun j rho2 =>
                          jj <- rd FR j ;; q <- rd Q (jj + n * nz) ;; hj <- rd Hz j ;; zj <- rd z j ;;
                          Ok (rho2 +' q *' (hj +' nlit 2 0 *' z2 *' zj))) rho2 ;;
                Ok (Next (rho2, R))
            end
          else Ok (Next (rho2, q_R (p_b s)))) ;;
    match c with
    | Brk _ => Ok (RET_REMOVEBOUND_FAILED, s)
    | Next (rho2, R) =>
        let s := up_b (set_q_R R) s in
        d <- storeRho n nz o allowFlip exch rho2 R ;;
        match d with
        | DKeep R => Ok (SUCCESSFUL_RETURN, up_b (set_q_R R) s)
        | DFlip => p_flipBound number (up_b (set_q_htype HST_SEMIDEF) s)
        | DBad => Ok (RET_HESSIAN_NOT_SPD, up_b (set_q_htype HST_SEMIDEF) s)
        | DNone =>
            R <- wr R (nz + n * nz) n0 ;;
            match e with Some e => addExchange e (up_b (set_q_R R) s) | None => UB end
        end
    end
  else Ok (SUCCESSFUL_RETURN, s).

(** removeConstraint and removeBound with ensureNZC = BT_FALSE
    (QProblem.cpp:3788-3822, 4030-4044) *)
Definition removeConstraint_check (number : Z) (s : qp) : res (returnValue + Z) :=
  if p_noUpdate s then Ok (inl RET_UNKNOWN_BUG) else
  k <- il_getIndex (p_active s) number ;;
  v <- st_getStatus (p_cons s) number ;;
  if is_sts v ST_INACTIVE then Ok (inl RET_CONSTRAINT_NOT_ACTIVE) else
  Ok (if (k <? 0) || (pAC s <=? k) then inl RET_CONSTRAINT_NOT_ACTIVE else inr k).
Definition removeConstraint0 (number : Z) (upd allowFlip : bool) (s : qp) : res (returnValue * qp) :=
  c <- removeConstraint_check number s ;;
  match c with inl r => Ok (r, s) | inr k => removeConstraint_update number k upd allowFlip None s end.
Definition removeBound_check (number : Z) (s : qp) : res (option returnValue) :=
  v <- st_getStatus (p_bounds s) number ;;
  if is_sts v ST_INACTIVE then Ok (Some RET_BOUND_NOT_ACTIVE) else
  Ok (if p_noUpdate s then Some RET_UNKNOWN_BUG else None).
Definition removeBound0 (number : Z) (upd allowFlip : bool) (s : qp) : res (returnValue * qp) :=
  c <- removeBound_check number s ;;
  match c with Some r => Ok (r, s) | None => removeBound_update number upd allowFlip None s end.
End QProblem.
