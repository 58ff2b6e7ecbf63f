(** Model of the numerical helper functions in src/Utils.cpp.

    Pointers that may be NULL are [option]s; reading through a NULL pointer is
    undefined behaviour.  Files are lists of tokens. *)
From Verif Require Import Base Types Num.

Section Utils.
Context {N : Num}.
Notation arr := (list N).

(** Utils.cpp:603-625; v may be a pointer into a larger array ([off]).  For an
    unsupported type the error is reported and -INFTY returned. *)
Definition getNorm (v : arr) (off n type_ : Z) : res N :=
  if type_ =? 2 then
    norm <- for_up 0 n (fun i norm => a <- rd v (off + i) ;; Ok (norm +' a *' a)) n0 ;; Ok (nsqrt norm)
  else if type_ =? 1 then
    for_up 0 n (fun i norm => a <- rd v (off + i) ;; Ok (norm +' nabs a)) n0
  else Ok (-' nINFTY).

(** Utils.cpp:652-677 *)
Definition kkt_stat (nV nC : Z) (H g A : option arr) (x y : arr) (idH : bool) : res N :=
  for_up 0 nV (fun i stat =>
    sum <- match g with
           | Some g => a <- rd g i ;; b <- rd y i ;; Ok (a -' b)
           | None => b <- rd y i ;; Ok (n0 -' b)
           end ;;
    sum <- match H with
           | Some H => for_up 0 nV (fun j sum => h <- rd H (i * nV + j) ;; xj <- rd x j ;; Ok (sum +' h *' xj)) sum
           | None => if idH then xi <- rd x i ;; Ok (sum +' xi) else Ok sum
           end ;;
    sum <- match A with
           | Some A => for_up 0 nC (fun j sum => a <- rd A (j * nV + i) ;; yj <- rd y (nV + j) ;; Ok (sum -' a *' yj)) sum
           | None => Ok sum
           end ;;
    Ok (if nabs sum >' stat then nabs sum else stat)) n0.

(** Utils.cpp:681-690 and 738-746: both sides of one two-sided bound. *)
Definition kkt_feas1 (lb ub : option arr) (i : Z) (v feas : N) : res N :=
  feas <- match lb with
          | Some lb => l <- rd lb i ;; Ok (if l -' v >' feas then l -' v else feas)
          | None => Ok feas
          end ;;
  match ub with
  | Some ub => u <- rd ub i ;; Ok (if v -' u >' feas then v -' u else feas)
  | None => Ok feas
  end.

(** Utils.cpp:693-730 and 748-781.  [ws] is the working set array. *)
Definition kkt_cmpl1 (lb ub ws : option arr) (i : Z) (v yi cmpl : N) : res N :=
  let tol : N := nlit 1 3 *' nEPS in
  prod <- match lb with
          | Some lb =>
            b <- match ws with None => Ok (yi >' tol) | Some w => wi <- rd w i ;; Ok (isEqual wi nm1) end ;;
            if b : bool then l <- rd lb i ;; Ok ((v -' l) *' yi) else Ok n0
          | None => Ok n0
          end ;;
  prod <- match ub with
          | Some ub =>
            b <- match ws with None => Ok (yi <' -' tol) | Some w => wi <- rd w i ;; Ok (isEqual wi n1) end ;;
            if b : bool then u <- rd ub i ;; Ok ((v -' u) *' yi) else Ok prod
          | None => Ok prod
          end ;;
  Ok (if nabs prod >' cmpl then nabs prod else cmpl).

(** Utils.cpp:631-787 *)
Definition getKktViolation (nV nC : Z) (H g A lb ub lbA ubA : option arr) (x y : arr)
    (wsB wsC : option arr) (idH : bool) : res (N * N * N) :=
  stat <- kkt_stat nV nC H g A x y idH ;;
  feas <- for_up 0 nV (fun i feas => xi <- rd x i ;; kkt_feas1 lb ub i xi feas) n0 ;;
  cmpl <- for_up 0 nV (fun i cmpl => xi <- rd x i ;; yi <- rd y i ;; kkt_cmpl1 lb ub wsB i xi yi cmpl) n0 ;;
  fc <- for_up 0 nC (fun i fc =>
    let '(feas, cmpl) := fc in
    sum <- match A with
           | Some A => for_up 0 nV (fun j sum => a <- rd A (i * nV + j) ;; xj <- rd x j ;; Ok (sum +' a *' xj)) n0
           | None => Ok n0
           end ;;
    feas <- kkt_feas1 lbA ubA i sum feas ;;
    yi <- rd y (nV + i) ;;
    cmpl <- kkt_cmpl1 lbA ubA wsC i sum yi cmpl ;;
    Ok (feas, cmpl)) (feas, cmpl) ;;
  Ok (stat, fst fc, snd fc).

(** Utils.cpp:963-1010.  The int n is converted to real_t; [n_of n] is that
    conversion. *)
Definition n_of (z : Z) : N := nlit z 0.
Definition norm_bound (b : option arr) (ii : Z) (f : N -> N) : res (option arr) :=
  match b with
  | Some b => v <- rd b ii ;; b' <- wr b ii (f v) ;; Ok (Some b')
  | None => Ok None
  end.
Definition normaliseConstraints (nV nC : Z) (A lbA ubA : option arr) (type_ : Z)
    : res (returnValue * (option arr * option arr * option arr)) :=
  match A with
  | None => Ok (RET_INVALID_ARGUMENTS, (A, lbA, ubA))
  | Some A0 =>
    if (nV <=? 0) || (nC <=? 0) then Ok (RET_INVALID_ARGUMENTS, (A, lbA, ubA)) else
    s <- for_up 0 nC (fun ii s =>
      let '(A, lbA, ubA) := s in
      curNorm <- getNorm A (ii * nV) nV type_ ;;
      if curNorm >' nEPS then
        A <- for_up 0 nV (fun jj A => a <- rd A (ii * nV + jj) ;; wr A (ii * nV + jj) (a /' curNorm)) A ;;
        lbA <- norm_bound lbA ii (fun v => v /' curNorm) ;;
        ubA <- norm_bound ubA ii (fun v => v /' curNorm) ;;
        Ok (A, lbA, ubA)
      else
        A <- for_up 0 nV (fun jj A =>
          wr A (ii * nV + jj) (if type_ =? 1 then n1 /' n_of nV else n1 /' nsqrt (n_of nV))) A ;;
        lbA <- norm_bound lbA ii (fun _ => -' nINFTY) ;;
        ubA <- norm_bound ubA ii (fun _ => nINFTY) ;;
        Ok (A, lbA, ubA)) (A0, lbA, ubA) ;;
    let '(A, lbA, ubA) := s in Ok (SUCCESSFUL_RETURN, (Some A, lbA, ubA))
  end.

(** Utils.cpp:273-321.  A file is the list of its whitespace-separated tokens:
    [Some v] for one that fscanf "%lf" converts to v, [None] for one it cannot
    convert.  fscanf returns 1, 0 and EOF (not 0) in the three cases below; in
    the last two float_data keeps its value, which initially is indeterminate. *)
Definition fscanf (file : list (option N)) (float_data : option N) : Z * list (option N) * option N :=
  match file with
  | Some v :: rest => (1, rest, Some v)
  | None :: _ => (0, file, float_data)
  | [] => (-1, [], float_data)
  end.
Definition readFromFile (data : arr) (nrow ncol : Z) (file : option (list (option N))) : res (returnValue * arr) :=
  match file with
  | None => Ok (RET_UNABLE_TO_OPEN_FILE, data)
  | Some file =>
    r <- forb_up 0 nrow (fun i s =>
      forb_up 0 ncol (fun j s =>
        let '(data, file, fd) := s in
        let '(rc, file, fd) := fscanf file fd in
        if rc =? 0 then Ok (Brk (RET_UNABLE_TO_READ_FILE, data))
        else match fd with
             | None => UB
             | Some v => data <- wr data (i * ncol + j) v ;; Ok (Next (data, file, fd))
             end) s) (data, file, None) ;;
    match r with
    | Brk e => Ok e
    | Next (data, _, _) => Ok (SUCCESSFUL_RETURN, data)
    end
  end.
End Utils.
