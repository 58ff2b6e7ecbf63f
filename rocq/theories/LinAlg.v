(** Dense linear algebra kernels: LAPACKReplacement.cpp (Cholesky), plane
    rotations (QProblemB.ipp) and triangular solves (QProblemB.cpp,
    QProblem.cpp).  Matrices are arrays with a leading dimension; the solver
    stores R and Q column-wise and T row-wise (QProblemB.cpp:1129,
    QProblem.cpp macros RR, QQ, TT). *)
From Verif Require Import Base Types Num.
Open Scope Z_scope.

Section LinAlg.
Context {N : Num}.
Notation arr := (list N).

(** LAPACKReplacement.cpp:39-81 (DPOTRF).  Result: info and the array; on
    failure the offending pivot is stored in a[0]. *)
Definition dpotrf (n : Z) (a : arr) (lda : Z) : res (Z * arr) :=
  c <- forb_up 0 n (fun i a =>
    sum <- rd a (i + lda * i) ;;
    sum <- for_dn (i - 1) (-1) (fun k sum => x <- rd a (k + lda * i) ;; Ok (sum -' x *' x)) sum ;;
    if sum >' n0 then
      a <- wr a (i + lda * i) (nsqrt sum) ;;
      a <- for_up (i + 1) n (fun j a =>
        sum <- rd a (j * lda + i) ;;
        sum <- for_dn (i - 1) (-1) (fun k sum =>
          x <- rd a (k + lda * i) ;; y <- rd a (k + lda * j) ;; Ok (sum -' x *' y)) sum ;;
        d <- rd a (i + lda * i) ;; wr a (i + lda * j) (sum /' d)) a ;;
      Ok (Next a)
    else
      a <- wr a 0 sum ;; Ok (Brk (i + 1, a))) a ;;
  match c with Next a => Ok (0, a) | Brk r => Ok r end.

(** QProblemB.ipp:409-441; result (xnew, ynew, c, s) *)
Definition computeGivens (xold yold : N) : N * N * N * N :=
  if isZero yold then (xold, yold, n1, n0)
  else
    let mu := nabs xold in
    let mu := if nabs yold >' mu then nabs yold else mu in
    let t := mu *' nsqrt ((xold /' mu) *' (xold /' mu) +' (yold /' mu) *' (yold /' mu)) in
    let t := if xold <' n0 then -' t else t in
    (t, n0, xold /' t, yold /' t).

(** QProblemB.ipp:447-469 (four multiplications; __USE_THREE_MULTS_GIVENS__ is
    not defined, Types.hpp:68); result (xnew, ynew) *)
Definition applyGivens (c s xold yold : N) : N * N :=
  (c *' xold +' s *' yold, (-' s) *' xold +' c *' yold).

(** QProblemB.cpp:1635-1694.  [nR] is the number of columns after the
    removingBound correction, [b = None] stands for a right-hand side that is
    the result vector itself (QProblemB.cpp:3108, 3112). *)
Definition rdb (b : option arr) (a : arr) (i : Z) : res N := match b with Some b => rd b i | None => rd a i end.
Definition backsolveR (nV nR : Z) (R : arr) (b : option arr) (transposed : bool) (a : arr) : res (returnValue * arr) :=
  if nR <=? 0 then Ok (SUCCESSFUL_RETURN, a) else
  c <- (if transposed then
    forb_up 0 nR (fun i a =>
      sum <- rdb b a i ;;
      sum <- for_up 0 i (fun j sum => r <- rd R (j + nV * i) ;; x <- rd a j ;; Ok (sum -' r *' x)) sum ;;
      d <- rd R (i + nV * i) ;;
      if nabs d >=' nZERO *' nabs sum then a <- wr a i (sum /' d) ;; Ok (Next a)
      else Ok (Brk (RET_DIV_BY_ZERO, a))) a
  else
    forb_dn (nR - 1) (-1) (fun i a =>
      sum <- rdb b a i ;;
      sum <- for_up (i + 1) nR (fun j sum => r <- rd R (i + nV * j) ;; x <- rd a j ;; Ok (sum -' r *' x)) sum ;;
      d <- rd R (i + nV * i) ;;
      if nabs d >=' nZERO *' nabs sum then a <- wr a i (sum /' d) ;; Ok (Next a)
      else Ok (Brk (RET_DIV_BY_ZERO, a))) a) ;;
  match c with Next a => Ok (SUCCESSFUL_RETURN, a) | Brk r => Ok r end.

(** QProblem.cpp:4518-4565 *)
Definition backsolveT (sizeT nT : Z) (T : arr) (b : arr) (transposed : bool) (a : arr) : res (returnValue * arr) :=
  let tcol := sizeT - nT in
  if nT <=? 0 then Ok (SUCCESSFUL_RETURN, a) else
  let row i k := if transposed then nT - 1 - k else i in
  let col i k := if transposed then tcol + i else sizeT - 1 - k in
  c <- forb_up 0 nT (fun i a =>
    sum <- rd b i ;;
    sum <- for_up 0 i (fun j sum =>
      t <- rd T (row i j * sizeT + col i j) ;; x <- rd a (nT - 1 - j) ;; Ok (sum -' t *' x)) sum ;;
    d <- rd T (row i i * sizeT + col i i) ;;
    if nabs d >' nEPS then a <- wr a (nT - 1 - i) (sum /' d) ;; Ok (Next a)
    else Ok (Brk (RET_DIV_BY_ZERO, a))) a ;;
  match c with Next a => Ok (SUCCESSFUL_RETURN, a) | Brk r => Ok r end.

End LinAlg.
