(** Model of the matrix classes (src/Matrices.cpp, include/qpOASES/Matrices.hpp)
    and of the BLAS replacement (src/BLASReplacement.cpp).

    Simplifications, here and below:
    - The branches on alpha (1, -1, other) stand outside the loops in the code;
      each consists of the same loops around a different statement.  They are
      moved inside ([acc]).  The same holds for the branches on beta, which are
      collected in [beta_pass].
    - x and y do not overlap.
    - int_t overflow is not modelled.
    - Memory management (doFreeMemory etc.) is not modelled except that arrays
      allocated by [new] have the stated length and arbitrary contents, which
      are arguments named [j...]. *)
From Verif Require Import Base Types Num Indexlist Utils.

(** Storage of the three matrix classes with entries of type T. *)
Record denseM (T : Type) := mkDense { d_nr : Z; d_nc : Z; d_ld : Z; d_val : list T }.
Record sparseM (T : Type) := mkSparse {
  s_nr : Z; s_nc : Z;
  s_ir : list Z; s_jc : list Z;
  s_jd : option (list Z);
  s_val : list T
}.
Record sprowM (T : Type) := mkSprow {
  r_nr : Z; r_nc : Z;
  r_jr : list Z; r_ic : list Z;
  r_jd : option (list Z);
  r_val : list T
}.
Arguments mkDense {T}. Arguments d_nr {T}. Arguments d_nc {T}. Arguments d_ld {T}. Arguments d_val {T}.
Arguments mkSparse {T}. Arguments s_nr {T}. Arguments s_nc {T}. Arguments s_ir {T}. Arguments s_jc {T}.
Arguments s_jd {T}. Arguments s_val {T}.
Arguments mkSprow {T}. Arguments r_nr {T}. Arguments r_nc {T}. Arguments r_jr {T}. Arguments r_ic {T}.
Arguments r_jd {T}. Arguments r_val {T}.

Section Matrices.
Context {N : Num}.
Notation arr := (list N).
Notation dense := (denseM N).
Notation sparse := (sparseM N).
Notation sprow := (sprowM N).

(** y += alpha * v * x with the special cases for alpha *)
Definition acc (alpha a v x : N) : N :=
  if isEqual alpha n1 then a +' v *' x
  else if isEqual alpha nm1 then a -' v *' x
  else a +' alpha *' v *' x.

(** y[p] += ... *)
Definition accum (alpha : N) (y : arr) (p : Z) (v x : N) : res arr :=
  a <- rd y p ;; wr y p (acc alpha a v x).

Definition rows (xN n : Z) (f : Z -> Z -> arr -> res arr) (y : arr) : res arr :=
  for_up 0 xN (fun k y => for_up 0 n (fun j y => f k j y) y) y.

(** "y = beta*y" with its special cases, e.g. Matrices.cpp:347-358.  [tgt j] is
    the row of the j-th addressed entry, [src j] the row read when beta is -1. *)
Definition beta_pass (xN n : Z) (tgt src : Z -> res Z) (beta : N) (y : arr) (yLD : Z) : res arr :=
  if isZero beta then
    rows xN n (fun k j y => t <- tgt j ;; wr y (t + k * yLD) n0) y
  else if isEqual beta nm1 then
    rows xN n (fun k j y => t <- tgt j ;; s <- src j ;; v <- rd y (s + k * yLD) ;; wr y (t + k * yLD) (-' v)) y
  else if negb (isEqual beta n1) then
    rows xN n (fun k j y => t <- tgt j ;; v <- rd y (t + k * yLD) ;; wr y (t + k * yLD) (v *' beta)) y
  else Ok y.

Definition id_row (j : Z) : res Z := Ok j.
Definition num_row (l : indexlist) (j : Z) : res Z := rd (il_number l) j.

(** BLASReplacement.cpp:39-94.  TRANSB is ignored by the code. *)
Definition dgemm (transA : bool) (M Nn K : Z) (alpha : N) (A : arr) (LDA : Z) (B : arr) (LDB : Z)
    (beta : N) (C : arr) (LDC : Z) : res arr :=
  C <- beta_pass Nn M id_row id_row beta C LDC ;;
  rows Nn M (fun k j C =>
    for_up 0 K (fun i C =>
      a <- rd A (if transA then i + LDA * j else j + LDA * i) ;;
      b <- rd B (i + LDB * k) ;;
      accum alpha C (j + LDC * k) a b) C) C.

(** ** DenseMatrix *)

(** memcpy of n elements into a fresh array *)
Definition copy_n (src : arr) (n : Z) (j : arr) : res arr :=
  for_up 0 n (fun i a => v <- rd src i ;; wr a i v) j.

(** Matrices.cpp:110-127 (needToFreeMemory() = BT_TRUE); without ownership the
    duplicate shares val (lines 122-125).  Both use leading dimension nCols. *)
Definition d_duplicate (own : bool) (A : dense) (j : arr) : res dense :=
  if own then v <- copy_n (d_val A) (d_nr A * d_nc A) j ;; Ok (mkDense (d_nr A) (d_nc A) (d_nc A) v)
  else Ok (mkDense (d_nr A) (d_nc A) (d_nc A) (d_val A)).

(** Matrices.cpp:129-133 *)
Definition d_diag (A : dense) (i : Z) : res N := rd (d_val A) (i * (d_ld A + 1)).

(** Matrices.cpp:135-147 *)
Definition d_isDiag (A : dense) : res bool :=
  if negb (d_nr A =? d_nc A) then Ok false else
  r <- forb_up 0 (d_nr A) (fun i _ =>
    forb_up 0 i (fun j _ =>
      a <- rd (d_val A) (i * d_ld A + j) ;;
      if nabs a >' nEPS then Ok (Brk tt) else
      b <- rd (d_val A) (j * d_ld A + i) ;;
      if nabs b >' nEPS then Ok (Brk tt) else Ok (Next tt)) tt) tt ;;
  match r with Brk _ => Ok false | Next _ => Ok true end.

(** Matrices.cpp:150-170 *)
Definition d_getNorm (A : dense) (type_ : Z) : res N := getNorm (d_val A) 0 (d_nc A * d_nr A) type_.
Definition d_getRowNorm1 (A : dense) (rNum type_ : Z) : res N := getNorm (d_val A) (rNum * d_ld A) (d_nc A) type_.
Definition d_getRowNorm (A : dense) (norm : arr) (type_ : Z) : res arr :=
  for_up 0 (d_nr A) (fun i norm => v <- getNorm (d_val A) (i * d_ld A) (d_nc A) type_ ;; wr norm i v) norm.

(** the three ways a matrix entry is stored: val, -val, alpha*val *)
Definition scaled (alpha v : N) : N :=
  if isEqual alpha n1 then v else if isEqual alpha nm1 then -' v else alpha *' v.

(** Matrices.cpp:172-200 *)
Definition d_getRow (A : dense) (rNum : Z) (icols : option indexlist) (alpha : N) (row : arr) : res arr :=
  match icols with
  | Some ic => for_up 0 (il_length ic) (fun i row =>
      c <- rd (il_number ic) i ;; v <- rd (d_val A) (rNum * d_ld A + c) ;; wr row i (scaled alpha v)) row
  | None => for_up 0 (d_nc A) (fun i row => v <- rd (d_val A) (rNum * d_ld A + i) ;; wr row i (scaled alpha v)) row
  end.

(** Matrices.cpp:203-219 *)
Definition d_getCol (A : dense) (cNum : Z) (irows : indexlist) (alpha : N) (col : arr) : res arr :=
  for_up 0 (il_length irows) (fun i col =>
    r <- rd (il_number irows) i ;; v <- rd (d_val A) (r * d_ld A + cNum) ;; wr col i (scaled alpha v)) col.

(** Matrices.cpp:299-326: row-major storage is handed to GEMM as the transpose,
    with leading dimension nCols. *)
Definition d_times (A : dense) (xN : Z) (alpha : N) (x : arr) (xLD : Z) (beta : N) (y : arr) (yLD : Z) : res arr :=
  dgemm true (d_nr A) xN (d_nc A) alpha (d_val A) (Z.max 1 (d_nc A)) x (Z.max 1 xLD) beta y (Z.max 1 yLD).
Definition d_transTimes (A : dense) (xN : Z) (alpha : N) (x : arr) (xLD : Z) (beta : N) (y : arr) (yLD : Z) : res arr :=
  dgemm false (d_nc A) xN (d_nr A) alpha (d_val A) (Z.max 1 (d_nc A)) x (Z.max 1 xLD) beta y (Z.max 1 yLD).

(** Matrices.cpp:329-511 *)
Definition d_times_idx (A : dense) (irows : indexlist) (icols : option indexlist) (xN : Z) (alpha : N)
    (x : arr) (xLD : Z) (beta : N) (y : arr) (yLD : Z) (yCompr : bool) : res arr :=
  y <- beta_pass xN (il_length irows) (if yCompr then id_row else num_row irows) id_row beta y yLD ;;
  rows xN (il_length irows) (fun k j y =>
    s <- rd (il_iSort irows) j ;;
    num <- rd (il_number irows) s ;;
    let iy := (if yCompr then s else num) + k * yLD in
    let irA := num * d_ld A in
    match icols with
    | None => for_up 0 (d_nc A) (fun i y =>
        v <- rd (d_val A) (irA + i) ;; xv <- rd x (k * xLD + i) ;; accum alpha y iy v xv) y
    | Some ic => for_up 0 (il_length ic) (fun i y =>
        col <- rd (il_iSort ic) i ;; c <- rd (il_number ic) col ;;
        v <- rd (d_val A) (irA + c) ;; xv <- rd x (k * xLD + col) ;; accum alpha y iy v xv) y
    end) y.

(** Matrices.cpp:513-565 *)
Definition d_transTimes_idx (A : dense) (irows icols : indexlist) (xN : Z) (alpha : N)
    (x : arr) (xLD : Z) (beta : N) (y : arr) (yLD : Z) : res arr :=
  y <- beta_pass xN (il_length icols) id_row id_row beta y yLD ;;
  rows xN (il_length irows) (fun k j y =>
    row <- rd (il_iSort irows) j ;;
    for_up 0 (il_length icols) (fun i y =>
      col <- rd (il_iSort icols) i ;;
      r <- rd (il_number irows) row ;; c <- rd (il_number icols) col ;;
      v <- rd (d_val A) (r * d_ld A + c) ;; xv <- rd x (row + k * xLD) ;;
      accum alpha y (col + k * yLD) v xv) y) y.

(** Matrices.cpp:568-575 *)
Definition d_addToDiag (A : dense) (alpha : N) : res (returnValue * dense) :=
  v <- for_up 0 (Z.min (d_nr A) (d_nc A)) (fun i val =>
         a <- rd val (i * (d_ld A + 1)) ;; wr val (i * (d_ld A + 1)) (a +' alpha)) (d_val A) ;;
  Ok (SUCCESSFUL_RETURN, mkDense (d_nr A) (d_nc A) (d_ld A) v).

(** Matrices.cpp:584-589 *)
Definition d_full (A : dense) (j : arr) : res arr := copy_n (d_val A) (d_nr A * d_nc A) j.

(** Matrices.cpp:632-669 (SymDenseMat) *)
Definition d_bilinear (A : dense) (icols : indexlist) (xN : Z) (x : arr) (xLD : Z) (y : arr) (yLD : Z) : res arr :=
  let len := il_length icols in
  y <- rows xN xN (fun ii jj y => wr y (ii * yLD + jj) n0) y ;;
  Ax <- for_up 0 len (fun j Ax =>
    nj <- rd (il_number icols) j ;;
    let irA := nj * d_ld A in
    for_up 0 len (fun i Ax =>
      ni <- rd (il_number icols) i ;;
      h <- rd (d_val A) (irA + ni) ;;
      for_up 0 xN (fun k Ax =>
        a <- rd Ax (j + k * len) ;; xv <- rd x (k * xLD + ni) ;; wr Ax (j + k * len) (a +' h *' xv)) Ax) Ax)
    (repeat n0 (Z.to_nat (len * xN))) ;;
  for_up 0 len (fun ii y =>
    col <- rd (il_number icols) ii ;;
    rows xN xN (fun jj kk y =>
      a <- rd y (kk + jj * yLD) ;; xv <- rd x (col + jj * xLD) ;; ax <- rd Ax (ii + kk * len) ;;
      wr y (kk + jj * yLD) (a +' xv *' ax)) y) y.

(** ** SparseMatrix (column compressed) *)

(** Matrices.cpp:678-704 *)
Definition s_new (nr nc ld : Z) (v : arr) (jjc jir : list Z) (jval : arr) : res sparse :=
  st <- for_up 0 nc (fun j st =>
    let '(jc, ir, val, nnz) := st in
    jc <- wr jc j nnz ;;
    st <- for_up 0 nr (fun i st =>
      let '(ir, val, nnz) := st in
      a <- rd v (i * ld + j) ;;
      if negb (isZeroT a n0) || (i =? j) then
        ir <- wr ir nnz i ;; val <- wr val nnz a ;; Ok (ir, val, nnz + 1)
      else Ok (ir, val, nnz)) (ir, val, nnz) ;;
    let '(ir, val, nnz) := st in
    Ok (jc, ir, val, nnz)) (jjc, jir, jval, 0) ;;
  let '(jc, ir, val, nnz) := st in
  jc <- wr jc nc nnz ;;
  Ok (mkSparse nr nc ir jc None val).

(** Matrices.cpp:761-771 *)
Definition s_diag (A : sparse) (i : Z) : res N :=
  match s_jd A with
  | None => Ok nINFTY
  | Some jd =>
    entry <- rd jd i ;;
    hi <- rd (s_jc A) (i + 1) ;;
    if entry <? hi then
      r <- rd (s_ir A) entry ;; if r =? i then rd (s_val A) entry else Ok n0
    else Ok n0
  end.

(** Matrices.cpp:774-792 *)
Definition s_isDiag (A : sparse) : res bool :=
  if negb (s_nc A =? s_nr A) then Ok false else
  r <- forb_up 0 (s_nc A) (fun j _ =>
    lo <- rd (s_jc A) j ;; hi <- rd (s_jc A) (j + 1) ;;
    if lo + 1 <? hi then Ok (Brk tt) else
    if hi =? lo + 1 then
      r <- rd (s_ir A) lo ;; if negb (r =? j) then Ok (Brk tt) else Ok (Next tt)
    else Ok (Next tt)) tt ;;
  match r with Brk _ => Ok false | Next _ => Ok true end.

(** Matrices.cpp:796-801 *)
Definition s_getNorm (A : sparse) (type_ : Z) : res N :=
  length <- rd (s_jc A) (s_nc A) ;; getNorm (s_val A) 0 length type_.

(** The scan "for (i = jc[j]; i < jc[j+1] && ir[i] < r; i++);" *)
Definition scan (ir : list Z) (lo hi r : Z) : res Z :=
  c <- forb_up lo hi (fun i _ => v <- rd ir i ;; if v <? r then Ok (Next tt) else Ok (Brk i)) tt ;;
  match c with Brk i => Ok i | Next _ => Ok (Z.max lo hi) end.

(** "(i < jc[j+1] && ir[i] == r) ? f(val[i]) : 0.0" after the scan; [None] when
    there is no such entry. *)
Definition entry_at (ptr idx : list Z) (val : arr) (j r : Z) : res (option N) :=
  lo <- rd ptr j ;; hi <- rd ptr (j + 1) ;;
  i <- scan idx lo hi r ;;
  if i <? hi then
    q <- rd idx i ;; if q =? r then v <- rd val i ;; Ok (Some v) else Ok None
  else Ok None.

(** Matrices.cpp:804-835 *)
Definition s_getRowNorm1 (A : sparse) (rNum type_ : Z) : res N :=
  if type_ =? 2 then
    norm <- for_up 0 (s_nc A) (fun j norm =>
      e <- entry_at (s_jc A) (s_ir A) (s_val A) j rNum ;;
      Ok (match e with Some v => norm +' v *' v | None => norm end)) n0 ;;
    Ok (nsqrt norm)
  else if type_ =? 1 then
    for_up 0 (s_nc A) (fun j norm =>
      e <- entry_at (s_jc A) (s_ir A) (s_val A) j rNum ;;
      Ok (match e with Some v => norm +' nabs v | None => norm end)) n0
  else Ok (-' nINFTY).

(** Matrices.cpp:837-865.  In the 1-norm the scan loop has an empty body; the
    statement after it is executed once, with i = max( jc[j],jc[j+1] ). *)
Definition s_getRowNorm (A : sparse) (norm : arr) (type_ : Z) : res (returnValue * arr) :=
  norm <- for_up 0 (s_nr A) (fun j norm => wr norm j n0) norm ;;
  if type_ =? 2 then
    norm <- for_up 0 (s_nc A) (fun j norm =>
      lo <- rd (s_jc A) j ;; hi <- rd (s_jc A) (j + 1) ;;
      for_up lo hi (fun i norm =>
        r <- rd (s_ir A) i ;; v <- rd (s_val A) i ;; a <- rd norm r ;; wr norm r (a +' v *' v)) norm) norm ;;
    norm <- for_up 0 (s_nr A) (fun j norm => a <- rd norm j ;; wr norm j (nsqrt a)) norm ;;
    Ok (SUCCESSFUL_RETURN, norm)
  else if type_ =? 1 then
    norm <- for_up 0 (s_nc A) (fun j norm =>
      lo <- rd (s_jc A) j ;; hi <- rd (s_jc A) (j + 1) ;;
      let i := Z.max lo hi in
      r <- rd (s_ir A) i ;; v <- rd (s_val A) i ;; a <- rd norm r ;; wr norm r (a +' nabs v)) norm ;;
    Ok (SUCCESSFUL_RETURN, norm)
  else Ok (RET_INVALID_ARGUMENTS, norm).

Definition opt_scaled (alpha : N) (e : option N) : N := match e with Some v => scaled alpha v | None => n0 end.

(** Matrices.cpp:868-918.  With icols = NULL and alpha <> 1 the code evaluates
    icols->length, dereferencing NULL. *)
Definition s_getRow (A : sparse) (rNum : Z) (icols : option indexlist) (alpha : N) (row : arr) : res arr :=
  match icols with
  | Some ic => for_up 0 (il_length ic) (fun k row =>
      s <- rd (il_iSort ic) k ;; j <- rd (il_number ic) s ;;
      e <- entry_at (s_jc A) (s_ir A) (s_val A) j rNum ;; wr row s (opt_scaled alpha e)) row
  | None =>
      if isEqual alpha n1 then
        for_up 0 (s_nc A) (fun j row =>
          e <- entry_at (s_jc A) (s_ir A) (s_val A) j rNum ;; wr row j (opt_scaled alpha e)) row
      else UB
  end.

(** Merge of a sorted compressed column (row) with a sorted index list, e.g.
    Matrices.cpp:929-935; [hit i s] is executed for entry i matching list
    position s, [miss s] for a list position without entry. *)
Definition merge {St : Type} (idx : list Z) (lo hi : Z) (l : indexlist)
    (hit : Z -> Z -> St -> res St) (miss : Z -> St -> res St) (s0 : St) : res (Z * Z * St) :=
  while_ (S (Z.to_nat (hi - lo) + Z.to_nat (il_length l))%nat)
    (fun st => let '(i, j, _) := st in Ok ((i <? hi) && (j <? il_length l)))
    (fun st => let '(i, j, s) := st in
      r <- rd idx i ;; p <- rd (il_iSort l) j ;; n <- rd (il_number l) p ;;
      if r =? n then s <- hit i p s ;; Ok (i + 1, j + 1, s)
      else if n <? r then s <- miss p s ;; Ok (i, j + 1, s)
      else Ok (i + 1, j, s))
    (lo, 0, s0).

(** Extraction by merging: Matrices.cpp:921-960 (getCol) and 1571-1612 (getRow of
    SparseMatrixRow). *)
Definition merge_get (ptr idx : list Z) (val : arr) (c : Z) (l : indexlist) (alpha : N) (out : arr) : res arr :=
  lo <- rd ptr c ;; hi <- rd ptr (c + 1) ;;
  st <- merge idx lo hi l
    (fun i p out => v <- rd val i ;; wr out p (scaled alpha v))
    (fun p out => wr out p n0) out ;;
  let '(_, j, out) := st in
  for_up j (il_length l) (fun j out => p <- rd (il_iSort l) j ;; wr out p n0) out.

Definition s_getCol (A : sparse) (cNum : Z) (irows : indexlist) (alpha : N) (col : arr) : res arr :=
  merge_get (s_jc A) (s_ir A) (s_val A) cNum irows alpha col.

(** Loop over the entries of one column (row). *)
Definition each_entry {St : Type} (ptr : list Z) (j : Z) (f : Z -> St -> res St) (s : St) : res St :=
  lo <- rd ptr j ;; hi <- rd ptr (j + 1) ;; for_up lo hi f s.

(** Matrices.cpp:1051-1085 *)
Definition s_times (A : sparse) (xN : Z) (alpha : N) (x : arr) (xLD : Z) (beta : N) (y : arr) (yLD : Z) : res arr :=
  y <- beta_pass xN (s_nr A) id_row id_row beta y yLD ;;
  rows xN (s_nc A) (fun k j y => each_entry (s_jc A) j (fun i y =>
    r <- rd (s_ir A) i ;; v <- rd (s_val A) i ;; xv <- rd x (j + k * xLD) ;;
    accum alpha y (r + k * yLD) v xv) y) y.

(** Matrices.cpp:1088-1122 *)
Definition s_transTimes (A : sparse) (xN : Z) (alpha : N) (x : arr) (xLD : Z) (beta : N) (y : arr) (yLD : Z) : res arr :=
  y <- beta_pass xN (s_nc A) id_row id_row beta y yLD ;;
  rows xN (s_nc A) (fun k j y => each_entry (s_jc A) j (fun i y =>
    r <- rd (s_ir A) i ;; v <- rd (s_val A) i ;; xv <- rd x (r + k * xLD) ;;
    accum alpha y (j + k * yLD) v xv) y) y.

(** Matrices.cpp:1171-1251: ytmp = A(:,icols)*x.  With icols = NULL and xN <> 1
    the temporary xcols is deleted inside the loop over the columns, so a second
    column uses freed memory. *)
Definition s_ytmp_col (A : sparse) (xN : Z) (x : arr) (xLD col j : Z) (ytmp : arr) : res arr :=
  if xN =? 1 then
    xcol <- rd x col ;;
    if isZero xcol then Ok ytmp
    else each_entry (s_jc A) j (fun i ytmp =>
      r <- rd (s_ir A) i ;; v <- rd (s_val A) i ;; a <- rd ytmp r ;; wr ytmp r (a +' v *' xcol)) ytmp
  else
    xmax <- for_up 0 xN (fun k xmax => xv <- rd x (k * xLD + col) ;; Ok (getMax xmax (nabs xv))) n0 ;;
    if isZero xmax then Ok ytmp
    else each_entry (s_jc A) j (fun i ytmp => for_up 0 xN (fun k ytmp =>
      r <- rd (s_ir A) i ;; v <- rd (s_val A) i ;; xv <- rd x (k * xLD + col) ;;
      a <- rd ytmp (k * s_nr A + r) ;; wr ytmp (k * s_nr A + r) (a +' v *' xv)) ytmp) ytmp.
Definition s_ytmp (A : sparse) (icols : option indexlist) (xN : Z) (x : arr) (xLD : Z) : res arr :=
  let z := repeat n0 (Z.to_nat (xN * s_nr A)) in
  match icols with
  | Some ic => for_up 0 (il_length ic) (fun l ytmp =>
      col <- rd (il_iSort ic) l ;; j <- rd (il_number ic) col ;; s_ytmp_col A xN x xLD col j ytmp) z
  | None =>
      if negb (xN =? 1) && (1 <? s_nc A) then UB
      else for_up 0 (s_nc A) (fun col ytmp => s_ytmp_col A xN x xLD col col ytmp) z
  end.

(** Matrices.cpp:1125-1305.  In the uncompressed case with beta <> 0 the code
    reads y[j+k*yLD] but writes y[irows->number[j]+k*yLD]; the last branch of
    either part is not taken when beta is 1. *)
Definition s_times_idx (A : sparse) (irows : indexlist) (icols : option indexlist) (xN : Z) (alpha : N)
    (x : arr) (xLD : Z) (beta : N) (y : arr) (yLD : Z) (yCompr : bool) : res arr :=
  let tgt := if yCompr then id_row else num_row irows in
  if isEqual alpha n0 then beta_pass xN (il_length irows) tgt tgt beta y yLD else
  ytmp <- s_ytmp A icols xN x xLD ;;
  let get k j := n <- rd (il_number irows) j ;; rd ytmp (n + k * s_nr A) in
  rows xN (il_length irows) (fun k j y =>
    w <- get k j ;; t <- tgt j ;;
    if isZero beta then wr y (t + k * yLD) (alpha *' w)
    else if isEqual beta n1 then
      v <- rd y (j + k * yLD) ;; wr y (t + k * yLD) (if yCompr then v +' alpha *' w else alpha *' w +' v)
    else if isEqual beta nm1 then
      v <- rd y (j + k * yLD) ;; wr y (t + k * yLD) (alpha *' w -' v)
    else
      v <- rd y (j + k * yLD) ;; wr y (t + k * yLD) (alpha *' w +' beta *' v)) y.

(** Matrices.cpp:1308-1355; "y += yLD" moves to the next right-hand side. *)
Definition s_transTimes_idx (A : sparse) (irows icols : indexlist) (xN : Z) (alpha : N)
    (x : arr) (xLD : Z) (beta : N) (y : arr) (yLD : Z) : res arr :=
  y <- beta_pass xN (il_length icols) id_row id_row beta y yLD ;;
  if isEqual alpha n0 then Ok y else
  for_up 0 xN (fun k y =>
    xtmp <- for_up 0 (il_length irows) (fun i xtmp =>
      n <- rd (il_number irows) i ;; xv <- rd x (k * xLD + i) ;; wr xtmp n xv) (repeat n0 (Z.to_nat (s_nr A))) ;;
    for_up 0 (il_length icols) (fun l y =>
      col <- rd (il_iSort icols) l ;; j <- rd (il_number icols) col ;;
      yadd <- each_entry (s_jc A) j (fun i yadd =>
        r <- rd (s_ir A) i ;; v <- rd (s_val A) i ;; xv <- rd xtmp r ;; Ok (yadd +' v *' xv)) n0 ;;
      a <- rd y (col + k * yLD) ;; wr y (col + k * yLD) (a +' alpha *' yadd)) y) y.

(** Matrices.cpp:1359-1378 and 2033-2052: ir[jd[i]] is read without checking
    that jd[i] lies in column i. *)
Definition addDiag (nr nc : Z) (idx : list Z) (jd : option (list Z)) (val : arr) (alpha : N) : res (returnValue * arr) :=
  match jd with
  | None => Ok (RET_DIAGONAL_NOT_INITIALISED, val)
  | Some jd =>
    if isZero alpha then Ok (SUCCESSFUL_RETURN, val) else
    c <- forb_up 0 (Z.min nr nc) (fun i val =>
      p <- rd jd i ;; r <- rd idx p ;;
      if r =? i then v <- rd val p ;; val <- wr val p (v +' alpha) ;; Ok (Next val)
      else Ok (Brk (RET_NO_DIAGONAL_AVAILABLE, val))) val ;;
    match c with Brk e => Ok e | Next val => Ok (SUCCESSFUL_RETURN, val) end
  end.
Definition s_addToDiag (A : sparse) (alpha : N) : res (returnValue * sparse) :=
  '(r, v) <- addDiag (s_nr A) (s_nc A) (s_ir A) (s_jd A) (s_val A) alpha ;;
  Ok (r, mkSparse (s_nr A) (s_nc A) (s_ir A) (s_jc A) (s_jd A) v).

(** Matrices.cpp:1381-1396 and 2055-2070 *)
Definition diagInfo (n : Z) (ptr idx : list Z) (jjd : list Z) : res (list Z) :=
  for_up 0 n (fun j jd => lo <- rd ptr j ;; hi <- rd ptr (j + 1) ;; i <- scan idx lo hi j ;; wr jd j i) jjd.
Definition s_createDiagInfo (A : sparse) (jjd : list Z) : res sparse :=
  match s_jd A with
  | Some _ => Ok A
  | None => jd <- diagInfo (s_nc A) (s_jc A) (s_ir A) jjd ;;
            Ok (mkSparse (s_nr A) (s_nc A) (s_ir A) (s_jc A) (Some jd) (s_val A))
  end.

(** Matrices.cpp:1400-1413 *)
Definition s_full (A : sparse) : res arr :=
  for_up 0 (s_nc A) (fun j v => each_entry (s_jc A) j (fun i v =>
    r <- rd (s_ir A) i ;; a <- rd (s_val A) i ;; wr v (r * s_nc A + j) a) v)
    (repeat n0 (Z.to_nat (s_nr A * s_nc A))).

(** Matrices.cpp:2144-2195 (SymSparseMat).  The output is cleared on the first
    xN*xN positions, whatever yLD is. *)
Definition s_bilinear (A : sparse) (icols : indexlist) (xN : Z) (x : arr) (xLD : Z) (y : arr) (yLD : Z)
    : res (returnValue * arr) :=
  match s_jd A with
  | None => Ok (RET_DIAGONAL_NOT_INITIALISED, y)
  | Some jd =>
    y <- for_up 0 (xN * xN) (fun i y => wr y i n0) y ;;
    y <- for_up 0 (il_length icols) (fun l y =>
      p <- rd (il_iSort icols) l ;; col <- rd (il_number icols) p ;;
      lo <- rd jd col ;; hi <- rd (s_jc A) (col + 1) ;;
      st <- merge (s_ir A) lo hi icols
        (fun idx p y =>
          row <- rd (il_number icols) p ;; v <- rd (s_val A) idx ;;
          for_up 0 xN (fun i y => for_up i xN (fun j y =>
            a <- rd y (i * yLD + j) ;;
            xic <- rd x (i * xLD + col) ;; xjc <- rd x (j * xLD + col) ;;
            if row =? col then wr y (i * yLD + j) (a +' v *' xic *' xjc)
            else xir <- rd x (i * xLD + row) ;; xjr <- rd x (j * xLD + row) ;;
                 wr y (i * yLD + j) (a +' v *' (xic *' xjr +' xir *' xjc))) y) y)
        (fun _ y => Ok y) y ;;
      let '(_, _, y) := st in Ok y) y ;;
    y <- for_up 0 xN (fun i y => for_up i xN (fun j y =>
           v <- rd y (i * yLD + j) ;; wr y (j * yLD + i) v) y) y ;;
    Ok (SUCCESSFUL_RETURN, y)
  end.

(** ** SparseMatrixRow (row compressed) *)

(** Matrices.cpp:1448-1473 *)
Definition r_new (nr nc ld : Z) (v : arr) (jjr jic : list Z) (jval : arr) : res sprow :=
  st <- for_up 0 nr (fun j st =>
    let '(jr, ic, val, nnz) := st in
    jr <- wr jr j nnz ;;
    st <- for_up 0 nc (fun i st =>
      let '(ic, val, nnz) := st in
      a <- rd v (j * ld + i) ;;
      if negb (isZeroT a n0) || (j =? i) then
        ic <- wr ic nnz i ;; val <- wr val nnz a ;; Ok (ic, val, nnz + 1)
      else Ok (ic, val, nnz)) (ic, val, nnz) ;;
    let '(ic, val, nnz) := st in
    Ok (jr, ic, val, nnz)) (jjr, jic, jval, 0) ;;
  let '(jr, ic, val, nnz) := st in
  jr <- wr jr nr nnz ;;
  Ok (mkSprow nr nc jr ic None val).

(** Matrices.cpp:1502-1532.  The loops copying jr and ic have each other's
    lengths; with diagonal information its first nCols entries are copied. *)
Definition copy_z (src : list Z) (n : Z) (j : list Z) : res (list Z) :=
  for_up 0 n (fun i a => v <- rd src i ;; wr a i v) j.
Definition r_duplicate (A : sprow) (jjr jic : list Z) (jval : arr) (jjd : list Z) : res sprow :=
  length <- rd (r_jr A) (r_nr A) ;;
  jr <- copy_z (r_jr A) length jjr ;;
  ic <- copy_z (r_ic A) (r_nc A + 1) jic ;;
  val <- copy_n (r_val A) length jval ;;
  jd <- match r_jd A with Some jd => jd <- copy_z jd (r_nc A) jjd ;; Ok (Some jd) | None => Ok None end ;;
  Ok (mkSprow (r_nr A) (r_nc A) jr ic jd val).
(** Matrices.cpp:722-748 (and 2113-2141) for comparison *)
Definition s_duplicate (A : sparse) (jjc jir : list Z) (jval : arr) (jjd : list Z) : res sparse :=
  length <- rd (s_jc A) (s_nc A) ;;
  ir <- copy_z (s_ir A) length jir ;;
  jc <- copy_z (s_jc A) (s_nc A + 1) jjc ;;
  val <- copy_n (s_val A) length jval ;;
  jd <- match s_jd A with Some jd => jd <- copy_z jd (s_nc A) jjd ;; Ok (Some jd) | None => Ok None end ;;
  Ok (mkSparse (s_nr A) (s_nc A) ir jc jd val).

(** Matrices.cpp:1536-1563 *)
Definition r_diag (A : sprow) (i : Z) : res N :=
  match r_jd A with
  | None => Ok nINFTY
  | Some jd =>
    entry <- rd jd i ;;
    hi <- rd (r_jr A) (i + 1) ;;
    if entry <? hi then
      c <- rd (r_ic A) entry ;; if c =? i then rd (r_val A) entry else Ok n0
    else Ok n0
  end.
Definition r_isDiag (A : sprow) : res bool :=
  if negb (r_nc A =? r_nr A) then Ok false else
  r <- forb_up 0 (r_nr A) (fun i _ =>
    lo <- rd (r_jr A) i ;; hi <- rd (r_jr A) (i + 1) ;;
    if lo + 1 <? hi then Ok (Brk tt) else
    if hi =? lo + 1 then
      c <- rd (r_ic A) lo ;; if negb (c =? i) then Ok (Brk tt) else Ok (Next tt)
    else Ok (Next tt)) tt ;;
  match r with Brk _ => Ok false | Next _ => Ok true end.

(** Matrices.cpp:1567-1597 *)
Definition r_getNorm (A : sprow) (type_ : Z) : res N :=
  length <- rd (r_jr A) (r_nr A) ;; getNorm (r_val A) 0 length type_.
Definition r_getRowNorm1 (A : sprow) (rNum type_ : Z) : res N :=
  lo <- rd (r_jr A) rNum ;; hi <- rd (r_jr A) (rNum + 1) ;; getNorm (r_val A) lo (hi - lo) type_.
Definition r_getRowNorm (A : sprow) (norm : arr) (type_ : Z) : res arr :=
  for_up 0 (r_nr A) (fun i norm =>
    lo <- rd (r_jr A) i ;; hi <- rd (r_jr A) (i + 1) ;; v <- getNorm (r_val A) lo (hi - lo) type_ ;; wr norm i v) norm.

(** Matrices.cpp:1600-1658 *)
Definition r_getRow (A : sprow) (rNum : Z) (icols : option indexlist) (alpha : N) (row : arr) : res arr :=
  match icols with
  | Some ic => merge_get (r_jr A) (r_ic A) (r_val A) rNum ic alpha row
  | None =>
    row <- for_up 0 (r_nc A) (fun i row => wr row i n0) row ;;
    each_entry (r_jr A) rNum (fun j row => c <- rd (r_ic A) j ;; v <- rd (r_val A) j ;; wr row c (scaled alpha v)) row
  end.

(** Matrices.cpp:1661-1715.  With irows = NULL the loop runs over nCols rows
    (alpha = 1) or dereferences NULL. *)
Definition r_getCol (A : sprow) (cNum : Z) (irows : option indexlist) (alpha : N) (col : arr) : res arr :=
  match irows with
  | Some ir => for_up 0 (il_length ir) (fun k col =>
      s <- rd (il_iSort ir) k ;; j <- rd (il_number ir) s ;;
      e <- entry_at (r_jr A) (r_ic A) (r_val A) j cNum ;; wr col s (opt_scaled alpha e)) col
  | None =>
      if isEqual alpha n1 then
        for_up 0 (r_nc A) (fun j col =>
          e <- entry_at (r_jr A) (r_ic A) (r_val A) j cNum ;; wr col j (opt_scaled alpha e)) col
      else UB
  end.

(** Matrices.cpp:1730-1764 *)
Definition r_times (A : sprow) (xN : Z) (alpha : N) (x : arr) (xLD : Z) (beta : N) (y : arr) (yLD : Z) : res arr :=
  y <- beta_pass xN (r_nr A) id_row id_row beta y yLD ;;
  rows xN (r_nr A) (fun k j y => each_entry (r_jr A) j (fun i y =>
    c <- rd (r_ic A) i ;; v <- rd (r_val A) i ;; xv <- rd x (c + k * xLD) ;;
    accum alpha y (j + k * yLD) v xv) y) y.

(** Matrices.cpp:1767-1801 *)
Definition r_transTimes (A : sprow) (xN : Z) (alpha : N) (x : arr) (xLD : Z) (beta : N) (y : arr) (yLD : Z) : res arr :=
  y <- beta_pass xN (r_nc A) id_row id_row beta y yLD ;;
  rows xN (r_nr A) (fun k i y => each_entry (r_jr A) i (fun j y =>
    c <- rd (r_ic A) j ;; v <- rd (r_val A) j ;; xv <- rd x (i + k * xLD) ;;
    accum alpha y (c + k * yLD) v xv) y) y.

(** Matrices.cpp:1804-1964.  In the uncompressed case with icols <> NULL the
    result is written to position iSort[l] instead of number[iSort[l]]. *)
Definition r_times_idx (A : sprow) (irows : indexlist) (icols : option indexlist) (xN : Z) (alpha : N)
    (x : arr) (xLD : Z) (beta : N) (y : arr) (yLD : Z) (yCompr : bool) : res arr :=
  y <- beta_pass xN (il_length irows) (if yCompr then id_row else num_row irows) id_row beta y yLD ;;
  for_up 0 (il_length irows) (fun l y =>
    srt <- rd (il_iSort irows) l ;; row <- rd (il_number irows) srt ;;
    match icols with
    | None => each_entry (r_jr A) row (fun j y => for_up 0 xN (fun k y =>
        c <- rd (r_ic A) j ;; v <- rd (r_val A) j ;; xv <- rd x (k * xLD + c) ;;
        accum alpha y (k * yLD + (if yCompr then srt else row)) v xv) y) y
    | Some ic =>
        lo <- rd (r_jr A) row ;; hi <- rd (r_jr A) (row + 1) ;;
        st <- merge (r_ic A) lo hi ic
          (fun j p y => for_up 0 xN (fun k y =>
            v <- rd (r_val A) j ;; xv <- rd x (k * xLD + p) ;; accum alpha y (k * yLD + srt) v xv) y)
          (fun _ y => Ok y) y ;;
        let '(_, _, y) := st in Ok y
    end) y.

(** Matrices.cpp:1967-2029 *)
Definition r_transTimes_idx (A : sprow) (irows icols : indexlist) (xN : Z) (alpha : N)
    (x : arr) (xLD : Z) (beta : N) (y : arr) (yLD : Z) : res arr :=
  y <- beta_pass xN (il_length icols) id_row id_row beta y yLD ;;
  for_up 0 (il_length irows) (fun l y =>
    srt <- rd (il_iSort irows) l ;; row <- rd (il_number irows) srt ;;
    lo <- rd (r_jr A) row ;; hi <- rd (r_jr A) (row + 1) ;;
    st <- merge (r_ic A) lo hi icols
      (fun j p y => for_up 0 xN (fun k y =>
        v <- rd (r_val A) j ;; xv <- rd x (k * xLD + srt) ;; accum alpha y (k * yLD + p) v xv) y)
      (fun _ y => Ok y) y ;;
    let '(_, _, y) := st in Ok y) y.

Definition r_addToDiag (A : sprow) (alpha : N) : res (returnValue * sprow) :=
  '(r, v) <- addDiag (r_nr A) (r_nc A) (r_ic A) (r_jd A) (r_val A) alpha ;;
  Ok (r, mkSprow (r_nr A) (r_nc A) (r_jr A) (r_ic A) (r_jd A) v).
Definition r_createDiagInfo (A : sprow) (jjd : list Z) : res sprow :=
  match r_jd A with
  | Some _ => Ok A
  | None => jd <- diagInfo (r_nr A) (r_jr A) (r_ic A) jjd ;;
            Ok (mkSprow (r_nr A) (r_nc A) (r_jr A) (r_ic A) (Some jd) (r_val A))
  end.

(** Matrices.cpp:2073-2086 *)
Definition r_full (A : sprow) : res arr :=
  for_up 0 (r_nr A) (fun i v => each_entry (r_jr A) i (fun j v =>
    c <- rd (r_ic A) j ;; a <- rd (r_val A) j ;; wr v (c + i * r_nc A) a) v)
    (repeat n0 (Z.to_nat (r_nr A * r_nc A))).
End Matrices.
