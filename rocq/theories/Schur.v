(** SQProblemSchur.cpp: the Schur complement S of the factorised KKT system and its
    QR factorisation S = Q R.

    S, Q and R are stored column-wise with leading dimension nSmax
    (SQProblemSchur.cpp:117-121): entry (i, j) is at i + j*nSmax.  The sparse
    columns that were appended are kept in M_vals, M_ir, M_jc (lines 122-125).

    Simplifications: the estimate of the condition number (TRCON, lines
    2397-2413) and print statements are left out; nu = s/(1+c) is only used by
    the variant of applyGivens with three multiplications, which is not
    compiled; newly allocated memory holds zeros; the sparse solver is a
    function [solve] that returns the solution or fails.  TRTRS is a routine of
    the system's LAPACK and is modelled by its specification: it reports a zero
    on the diagonal without solving and substitutes backwards otherwise. *)
From Verif Require Import Base Types Num LinAlg.
Open Scope Z_scope.

Section Schur.
Context {N : Num}.
Notation arr := (list N).

Record schur := mkSchur {
  sc_max : Z;          (* nSmax *)
  sc_n : Z;            (* nS *)
  sc_S : arr; sc_Q : arr; sc_R : arr;
  sc_det : N;          (* detS *)
  sc_jc : list Z; sc_ir : list Z; sc_mv : arr;   (* M_jc, M_ir, M_vals *)
  sc_idx : list Z; sc_typ : list Z               (* schurUpdateIndex, schurUpdate *)
}.

(** a rotation of two entries, and the rotation that annihilates the second *)
Definition rotv (c s : N) (a : arr) (p q : Z) : res arr :=
  x <- rd a p ;; y <- rd a q ;;
  let '(x', y') := applyGivens c s x y in
  a <- wr a p x' ;; wr a q y'.
Definition givens_at (a : arr) (p q : Z) : res (arr * N * N) :=
  x <- rd a p ;; y <- rd a q ;;
  let '(x', y', c, s) := computeGivens x y in
  a <- wr a p x' ;; a <- wr a q y' ;; Ok (a, c, s).

(** lines 2298-2331: S has been bordered *)
Definition qr_border (m n : Z) (S Q R : arr) : res (arr * arr) :=
  Q <- for_up 0 n (fun i Q => Q <- wr Q (i + (n - 1) * m) n0 ;; wr Q ((n - 1) + i * m) n0) Q ;;
  Q <- wr Q ((n - 1) + (n - 1) * m) n1 ;;
  R <- for_up 0 n (fun i R => v <- rd S ((n - 1) + i * m) ;; wr R ((n - 1) + i * m) v) R ;;
  R <- for_up 0 n (fun i R =>
    R <- wr R (i + (n - 1) * m) n0 ;;
    for_up 0 n (fun j R =>
      r <- rd R (i + (n - 1) * m) ;; q <- rd Q (j + i * m) ;; v <- rd S (j + (n - 1) * m) ;;
      wr R (i + (n - 1) * m) (r +' q *' v)) R) R ;;
  Ok (Q, R).
Definition qr_append_rot (m n i : Z) (st : arr * arr) : res (arr * arr) :=
  let '(Q, R) := st in
  '(R, c, s) <- givens_at R (i + i * m) ((n - 1) + i * m) ;;
  R <- for_up (i + 1) n (fun j R => rotv c s R (i + j * m) ((n - 1) + j * m)) R ;;
  Q <- for_up 0 n (fun j Q => rotv c s Q (j + i * m) (j + (n - 1) * m)) Q ;;
  Ok (Q, R).
Definition qr_append (m n : Z) (S Q R : arr) : res (arr * arr) :=
  st <- qr_border m n S Q R ;;
  for_up 0 (n - 1) (fun i st => qr_append_rot m n i st) st.

(** lines 2335-2388: row and column idx have been deleted from S *)
Definition qr_dropcol (m n idx : Z) (R : arr) : res arr :=
  for_up idx n (fun j R => for_up 0 (n + 1) (fun i R => v <- rd R (i + (j + 1) * m) ;; wr R (i + j * m) v) R) R.
Definition qr_delete_rot1 (m n i : Z) (st : arr * arr) : res (arr * arr) :=
  let '(Q, R) := st in
  '(R, c, s) <- givens_at R (i + i * m) ((i + 1) + i * m) ;;
  R <- for_up (i + 1) n (fun j R => rotv c s R (i + j * m) ((i + 1) + j * m)) R ;;
  Q <- for_up 0 (n + 1) (fun j Q => rotv c s Q (j + i * m) (j + (i + 1) * m)) Q ;;
  Ok (Q, R).
Definition qr_permute (m n idx : Z) (Q : arr) : res arr :=
  for_up 0 (n + 1) (fun j Q =>
    t <- rd Q (idx + j * m) ;;
    Q <- for_up idx n (fun i Q => v <- rd Q ((i + 1) + j * m) ;; wr Q (i + j * m) v) Q ;;
    wr Q (n + j * m) t) Q.
Definition qr_delete_rot2 (m n i : Z) (st : arr * arr) : res (arr * arr) :=
  let '(Q, R) := st in
  '(Q, c, s) <- givens_at Q (n + n * m) (n + (i - 1) * m) ;;
  Q <- for_up 0 n (fun j Q => rotv c s Q (j + n * m) (j + (i - 1) * m)) Q ;;
  R <- for_up (i - 1) n (fun j R => rotv c s R (n + j * m) ((i - 1) + j * m)) R ;;
  Ok (Q, R).
(** the sign test in lines 2380-2381; C's % truncates, but 0 <= idx <= nS *)
Definition flip_sign (n idx : Z) (q : N) : bool :=
  ((Z.rem (n - idx) 2 =? 1) && (q >' n0)) || ((Z.rem (n - idx) 2 =? 0) && (q <' n0)).
Definition qr_delete (m n idx : Z) (Q R : arr) : res (arr * arr) :=
  R <- qr_dropcol m n idx R ;;
  '(Q, R) <- for_up idx n (fun i st => qr_delete_rot1 m n i st) (Q, R) ;;
  Q <- qr_permute m n idx Q ;;
  '(Q, R) <- for_dn n 0 (fun i st => qr_delete_rot2 m n i st) (Q, R) ;;
  q <- rd Q (n + n * m) ;;
  if flip_sign n idx q then
    Q <- for_up 0 (n + 1) (fun i Q => v <- rd Q i ;; wr Q i (-' v)) Q ;;
    R <- for_up 0 n (fun i R => v <- rd R (i * m) ;; wr R (i * m) (-' v)) R ;;
    Ok (Q, R)
  else Ok (Q, R).

(** lines 2391-2395 *)
Definition det_sign (m n : Z) (R : arr) : res N :=
  for_up 0 n (fun i d => r <- rd R (i + i * m) ;; Ok (if r <' n0 then -' d else d)) n1.

(** lines 2285-2418 *)
Definition updateSchurQR (idxDel : Z) (w : schur) : res schur :=
  let n := sc_n w in let m := sc_max w in
  if n <=? 0 then
    Ok (mkSchur m n (sc_S w) (sc_Q w) (sc_R w) n1 (sc_jc w) (sc_ir w) (sc_mv w) (sc_idx w) (sc_typ w))
  else
    '(Q, R) <- (if idxDel <? 0 then qr_append m n (sc_S w) (sc_Q w) (sc_R w) else qr_delete m n idxDel (sc_Q w) (sc_R w)) ;;
    d <- det_sign m n R ;;
    Ok (mkSchur m n (sc_S w) Q R d (sc_jc w) (sc_ir w) (sc_mv w) (sc_idx w) (sc_typ w)).

(** TRTRS( "U", "N", "N" ) with one right-hand side *)
Definition trtrs (m n : Z) (R b : arr) : res (bool * arr) :=
  z <- for_up 0 n (fun i z => r <- rd R (i + i * m) ;; Ok (z || (r ==' n0))) false ;;
  if z then Ok (false, b) else
  b <- for_dn (n - 1) (-1) (fun k b =>
    x <- rd b k ;; r <- rd R (k + k * m) ;; b <- wr b k (x /' r) ;;
    for_up 0 k (fun i b => x <- rd b i ;; y <- rd b k ;; r <- rd R (i + k * m) ;; wr b i (x -' y *' r)) b) b ;;
  Ok (true, b).

(** lines 2424-2464; [sol] is the array given by the caller *)
Definition backsolveSchurQR (w : schur) (dimS : Z) (rhs : arr) (dimRhs : Z) (sol : arr) : res (returnValue * arr) :=
  let m := sc_max w in
  if (dimS <? 1) || (dimRhs <? 1) then Ok (SUCCESSFUL_RETURN, sol) else
  if dimRhs >? 1 then Ok (RET_QR_FACTORISATION_FAILED, sol) else
  sol <- for_up 0 dimS (fun i sol => wr sol i n0) sol ;;
  sol <- for_up 0 dimS (fun i sol => for_up 0 dimS (fun j sol =>
    x <- rd sol i ;; q <- rd (sc_Q w) (j + i * m) ;; r <- rd rhs j ;; wr sol i (x +' q *' r)) sol) sol ;;
  '(ok, sol) <- trtrs m dimS (sc_R w) sol ;;
  Ok ((if ok then SUCCESSFUL_RETURN else RET_QR_FACTORISATION_FAILED), sol).

(** lines 2192-2279 *)
Definition cd_rot1 (n i : Z) (st : arr * arr) : res (arr * arr) :=
  let '(q, R) := st in
  let d := n + 1 in
  '(R, c, s) <- givens_at R (i + i * d) ((i + 1) + i * d) ;;
  R <- for_up (i + 1) n (fun j R => rotv c s R (i + j * d) ((i + 1) + j * d)) R ;;
  q <- rotv c s q i (i + 1) ;;
  Ok (q, R).
Definition cd_rot2 (n i : Z) (st : arr * arr) : res (arr * arr) :=
  let '(q, R) := st in
  let d := n + 1 in
  '(q, c, s) <- givens_at q n (i - 1) ;;
  R <- rotv c s R (n + (i - 1) * d) ((i - 1) + (i - 1) * d) ;;
  Ok (q, R).
Definition calcDetSchur (idxDel : Z) (w : schur) : res N :=
  let n := sc_n w in let m := sc_max w in
  if n <=? 0 then Ok n1 else
  if idxDel <? 0 then
    t1 <- for_up 0 (n - 1) (fun i t => v <- rd (sc_S w) (i + (n - 1) * m) ;; wr t i v) (repeat n0 (Z.to_nat (n - 1))) ;;
    '(_, t2) <- backsolveSchurQR w (n - 1) t1 1 (repeat n0 (Z.to_nat (n - 1))) ;;
    d <- rd (sc_S w) ((n - 1) + (n - 1) * m) ;;
    d <- for_up 0 (n - 1) (fun i d => x <- rd t1 i ;; y <- rd t2 i ;; Ok (d -' x *' y)) d ;;
    Ok (d *' sc_det w)
  else
    let d := n + 1 in
    R <- for_up 0 idxDel (fun j R => for_up 0 d (fun i R => v <- rd (sc_R w) (i + j * m) ;; wr R (i + j * d) v) R) (repeat n0 (Z.to_nat (d * (d - 1)))) ;;
    R <- for_up idxDel (d - 1) (fun j R => for_up 0 d (fun i R => v <- rd (sc_R w) (i + (j + 1) * m) ;; wr R (i + j * d) v) R) R ;;
    q <- for_up 0 d (fun j q => v <- rd (sc_Q w) (idxDel + j * m) ;; wr q j v) (repeat n0 (Z.to_nat d)) ;;
    '(q, R) <- for_up idxDel n (fun i st => cd_rot1 n i st) (q, R) ;;
    '(q, R) <- for_dn n 0 (fun i st => cd_rot2 n i st) (q, R) ;;
    x <- rd q n ;;
    R <- (if flip_sign n idxDel x then r <- rd R 0 ;; wr R 0 (-' r) else Ok R) ;;
    det_sign d n R.

(** lines 3117-3161: y - M x and M' x *)
Definition computeMTimes (w : schur) (x y : arr) : res arr :=
  for_up 0 (sc_n w) (fun j y =>
    xv <- rd x j ;; lo <- rd (sc_jc w) j ;; hi <- rd (sc_jc w) (j + 1) ;;
    for_up lo hi (fun i y => k <- rd (sc_ir w) i ;; v <- rd (sc_mv w) i ;; t <- rd y k ;; wr y k (t -' v *' xv)) y) y.
Definition computeMTransTimes (w : schur) (x : arr) (neg : bool) (y : arr) : res arr :=
  for_up 0 (sc_n w) (fun j y =>
    y <- (if neg then t <- rd y j ;; wr y j (-' t) else wr y j n0) ;;
    lo <- rd (sc_jc w) j ;; hi <- rd (sc_jc w) (j + 1) ;;
    for_up lo hi (fun i y => t <- rd y j ;; v <- rd (sc_mv w) i ;; k <- rd (sc_ir w) i ;; u <- rd x k ;; wr y j (t +' v *' u)) y) y.

(** lines 3163-3243; [dim] is the number of rows of the factorised matrix *)
Definition addToSchurComplement (solve : arr -> option arr) (dim number update : Z) (Mpos : list Z) (Mvals : arr) (Npos : list Z) (Nvals : arr)
    (N_diag : N) (w : schur) : res (returnValue * schur) :=
  let n := sc_n w in let m := sc_max w in
  let nm := zlen Mpos in let nn := zlen Npos in
  rhs <- for_up 0 nm (fun i rhs => p <- rd Mpos i ;; v <- rd Mvals i ;; wr rhs p v) (repeat n0 (Z.to_nat dim)) ;;
  match solve rhs with
  | None => Ok (RET_MATRIX_FACTORISATION_FAILED, w)
  | Some sol =>
    col <- computeMTransTimes w sol false (repeat n0 (Z.to_nat n)) ;;
    col <- for_up 0 nn (fun i col => p <- rd Npos i ;; v <- rd Nvals i ;; x <- rd col p ;; wr col p (x -' v)) col ;;
    sdiag <- for_up 0 nm (fun i d => v <- rd Mvals i ;; p <- rd Mpos i ;; x <- rd sol p ;; Ok (d +' v *' x)) (-' N_diag) ;;
    S <- for_up 0 n (fun i S => v <- rd col i ;; wr S (n * m + i) v) (sc_S w) ;;
    S <- for_up 0 n (fun i S => v <- rd col i ;; wr S (i * m + n) v) S ;;
    S <- wr S (n * m + n) sdiag ;;
    idx <- wr (sc_idx w) n number ;;
    typ <- wr (sc_typ w) n update ;;
    len <- rd (sc_jc w) n ;;
    '(ir, mv) <- (if zlen (sc_mv w) <? len + nm then
        let phys := Z.max (2 * zlen (sc_mv w)) (zlen (sc_mv w) + 2 * nm) in
        mv <- for_up 0 len (fun i a => v <- rd (sc_mv w) i ;; wr a i v) (repeat n0 (Z.to_nat phys)) ;;
        ir <- for_up 0 len (fun i a => v <- rd (sc_ir w) i ;; wr a i v) (repeat 0 (Z.to_nat phys)) ;;
        Ok (ir, mv)
      else Ok (sc_ir w, sc_mv w)) ;;
    '(ir, mv) <- for_up 0 nm (fun i st =>
        let '(ir, mv) := st in
        v <- rd Mvals i ;; p <- rd Mpos i ;;
        mv <- wr mv (len + i) v ;; ir <- wr ir (len + i) p ;; Ok (ir, mv)) (ir, mv) ;;
    jc <- wr (sc_jc w) (n + 1) (len + nm) ;;
    Ok (SUCCESSFUL_RETURN, mkSchur m (n + 1) S (sc_Q w) (sc_R w) (sc_det w) jc ir mv idx typ)
  end.

(** lines 3245-3342 *)
Definition move2 (ir : list Z) (mv : arr) (from to : Z) : res (list Z * arr) :=
  p <- rd ir from ;; ir <- wr ir to p ;; v <- rd mv from ;; mv <- wr mv to v ;; Ok (ir, mv).
Definition deleteFromSchurComplement (idx : Z) (undo : bool) (w : schur) : res (returnValue * schur) :=
  let n := sc_n w in let m := sc_max w in
  if idx =? n - 1 then
    Ok (SUCCESSFUL_RETURN, mkSchur m (n - 1) (sc_S w) (sc_Q w) (sc_R w) (sc_det w) (sc_jc w) (sc_ir w) (sc_mv w) (sc_idx w) (sc_typ w))
  else
    tmp <- (if undo then for_up 0 n (fun i t => v <- rd (sc_S w) (idx * m + i) ;; wr t i v) (repeat n0 (Z.to_nat n)) else Ok nil) ;;
    ti <- (if undo then rd (sc_idx w) idx else Ok (-1)) ;;
    tt <- (if undo then rd (sc_typ w) idx else Ok (-1)) ;;
    S <- for_up 0 idx (fun i S => for_up (idx + 1) n (fun j S => v <- rd S (i * m + j) ;; wr S (i * m + j - 1) v) S) (sc_S w) ;;
    S <- for_up (idx + 1) n (fun i S =>
      S <- for_up 0 idx (fun j S => v <- rd S (i * m + j) ;; wr S ((i - 1) * m + j) v) S ;;
      for_up (idx + 1) n (fun j S => v <- rd S (i * m + j) ;; wr S ((i - 1) * m + j - 1) v) S) S ;;
    '(si, st) <- for_up (idx + 1) n (fun i p => let '(si, st) := p in
      v <- rd si i ;; si <- wr si (i - 1) v ;; u <- rd st i ;; st <- wr st (i - 1) u ;; Ok (si, st)) (sc_idx w, sc_typ w) ;;
    S <- (if undo then for_up 0 n (fun i S => v <- rd tmp i ;; S <- wr S ((n - 1) * m + i) v ;; wr S (i * m + (n - 1)) v) S else Ok S) ;;
    si <- (if undo then wr si (n - 1) ti else Ok si) ;;
    st <- (if undo then wr st (n - 1) tt else Ok st) ;;
    lo <- rd (sc_jc w) idx ;; hi <- rd (sc_jc w) (idx + 1) ;;
    let ne := hi - lo in
    '(tir, tmv) <- (if undo then for_up lo hi (fun i t => let '(tir, tmv) := t in
        p <- rd (sc_ir w) i ;; tir <- wr tir (i - lo) p ;; v <- rd (sc_mv w) i ;; tmv <- wr tmv (i - lo) v ;; Ok (tir, tmv))
        (repeat 0 (Z.to_nat ne), repeat n0 (Z.to_nat ne)) else Ok (nil, nil)) ;;
    en <- rd (sc_jc w) n ;;
    '(ir, mv) <- for_up hi en (fun i p => move2 (fst p) (snd p) i (i - ne)) (sc_ir w, sc_mv w) ;;
    jc <- for_up idx n (fun i jc => v <- rd jc (i + 1) ;; wr jc i (v - ne)) (sc_jc w) ;;
    '(ir, mv) <- (if undo then
        l <- rd jc (n - 1) ;; h <- rd jc n ;;
        for_up l h (fun i p => let '(ir, mv) := p in
          k <- rd tir (i - l) ;; ir <- wr ir i k ;; v <- rd tmv (i - l) ;; mv <- wr mv i v ;; Ok (ir, mv)) (ir, mv)
      else Ok (ir, mv)) ;;
    Ok (SUCCESSFUL_RETURN, mkSchur m (n - 1) S (sc_Q w) (sc_R w) (sc_det w) jc ir mv si st).

(** lines 3344-3430 *)
Definition undoDeleteFromSchurComplement (idx : Z) (w : schur) : res (returnValue * schur) :=
  let n := sc_n w in let m := sc_max w in
  if idx =? n then
    Ok (SUCCESSFUL_RETURN, mkSchur m (n + 1) (sc_S w) (sc_Q w) (sc_R w) (sc_det w) (sc_jc w) (sc_ir w) (sc_mv w) (sc_idx w) (sc_typ w))
  else
    tmp <- for_up 0 (n + 1) (fun i t => v <- rd (sc_S w) (i + n * m) ;; wr t i v) (repeat n0 (Z.to_nat (n + 1))) ;;
    ti <- rd (sc_idx w) n ;;
    tt <- rd (sc_typ w) n ;;
    S <- for_dn (idx - 1) (-1) (fun i S => for_dn (n - 1) (idx - 1) (fun j S => v <- rd S (j + i * m) ;; wr S ((j + 1) + i * m) v) S) (sc_S w) ;;
    S <- for_dn (n - 1) (idx - 1) (fun i S =>
      S <- for_dn (idx - 1) (-1) (fun j S => v <- rd S (j + i * m) ;; wr S (j + (i + 1) * m) v) S ;;
      for_dn (n - 1) (idx - 1) (fun j S => v <- rd S (j + i * m) ;; wr S ((j + 1) + (i + 1) * m) v) S) S ;;
    '(si, st) <- for_dn (n - 1) (idx - 1) (fun i p => let '(si, st) := p in
      v <- rd si i ;; si <- wr si (i + 1) v ;; u <- rd st i ;; st <- wr st (i + 1) u ;; Ok (si, st)) (sc_idx w, sc_typ w) ;;
    S <- for_up 0 (n + 1) (fun i S => v <- rd tmp i ;; S <- wr S (idx * m + i) v ;; wr S (i * m + idx) v) S ;;
    si <- wr si idx ti ;;
    st <- wr st idx tt ;;
    lo <- rd (sc_jc w) n ;; hi <- rd (sc_jc w) (n + 1) ;;
    let ne := hi - lo in
    '(tir, tmv) <- for_up lo hi (fun i t => let '(tir, tmv) := t in
        p <- rd (sc_ir w) i ;; tir <- wr tir (i - lo) p ;; v <- rd (sc_mv w) i ;; tmv <- wr tmv (i - lo) v ;; Ok (tir, tmv))
        (repeat 0 (Z.to_nat ne), repeat n0 (Z.to_nat ne)) ;;
    be <- rd (sc_jc w) idx ;;
    '(ir, mv) <- for_dn (lo - 1) (be - 1) (fun i p => move2 (fst p) (snd p) i (i + ne)) (sc_ir w, sc_mv w) ;;
    jc <- for_dn n (idx - 1) (fun i jc => v <- rd jc i ;; wr jc (i + 1) (v + ne)) (sc_jc w) ;;
    l <- rd jc idx ;; h <- rd jc (idx + 1) ;;
    '(ir, mv) <- for_up l h (fun i p => let '(ir, mv) := p in
        k <- rd tir (i - l) ;; ir <- wr ir i k ;; v <- rd tmv (i - l) ;; mv <- wr mv i v ;; Ok (ir, mv)) (ir, mv) ;;
    Ok (SUCCESSFUL_RETURN, mkSchur m (n + 1) S (sc_Q w) (sc_R w) (sc_det w) jc ir mv si st).

(** lines 105-128 (constructor) with nS = 0, detS = 1 and M_jc[0] = 0 as set by
    resetSchurComplement (lines 2994-3000) *)
Definition schur_new (m phys : Z) : schur :=
  mkSchur m 0 (repeat n0 (Z.to_nat (m * m))) (repeat n0 (Z.to_nat (m * m))) (repeat n0 (Z.to_nat (m * m))) n1
    (repeat 0 (Z.to_nat (m + 1))) (repeat 0 (Z.to_nat phys)) (repeat n0 (Z.to_nat phys)) (repeat 0 (Z.to_nat m)) (repeat 0 (Z.to_nat m)).
Definition schur_reset (w : schur) : res schur :=
  jc <- (if 0 <? sc_max w then wr (sc_jc w) 0 0 else Ok (sc_jc w)) ;;
  Ok (mkSchur (sc_max w) 0 (sc_S w) (sc_Q w) (sc_R w) n1 jc (sc_ir w) (sc_mv w) (sc_idx w) (sc_typ w)).
End Schur.
Arguments schur : clear implicits.
