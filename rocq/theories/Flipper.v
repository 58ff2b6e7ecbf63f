(** Model of class Flipper (src/Flipper.cpp:47-252, include/qpOASES/Flipper.hpp).

    Dimensions that were never written are [None]; using one is undefined
    behaviour.  Factor arrays are [option (list N)], [None] being NULL.  The
    assignments of Bounds and Constraints objects are value copies (their copy
    loops are modelled in SubjectTo.v, property C07). *)
From Verif Require Import Base Types Num Indexlist SubjectTo.

Section Flipper.
Context {N : Num}.
Notation arr := (list N).

Record flipper := mkFl {
  fl_nV : option Z;
  fl_nC : option Z;
  fl_bounds : subjectTo;
  fl_constraints : subjectTo;
  fl_R : option arr;
  fl_Q : option arr;
  fl_T : option arr
}.

(** memcpy( dst,src, k*sizeof(real_t) ) *)
Definition memcpy (dst src : arr) (k : Z) : res arr :=
  if (zlen src <? k) || (zlen dst <? k) then UB
  else Ok (firstn (Z.to_nat k) src ++ skipn (Z.to_nat k) dst).

(** reading a possibly uninitialised unsigned member *)
Definition use (o : option Z) : res Z := match o with Some v => Ok v | None => UB end.

(** Flipper.cpp:240-246 *)
Definition fl_getDimT (s : flipper) : res Z :=
  nV <- use (fl_nV s) ;; nC <- use (fl_nC s) ;;
  Ok (if nC <? nV then nC * nC else nV * nV).
Definition fl_dimRQ (s : flipper) : res Z := nV <- use (fl_nV s) ;; Ok (nV * nV).

(** Flipper.cpp:206-227 *)
Definition fl_clear (s : flipper) : flipper :=
  mkFl (fl_nV s) (fl_nC s) (fl_bounds s) (fl_constraints s) None None None.

(** Flipper.cpp:115-126 *)
Definition fl_init (s : flipper) (nV nC : Z) : flipper :=
  let s := fl_clear s in
  mkFl (Some nV) (Some nC) (fl_bounds s) (fl_constraints s) (fl_R s) (fl_Q s) (fl_T s).

(** Members before the constructor body: dimensions unset, pointers NULL. *)
Definition fl_raw : flipper := mkFl None None st_empty st_empty None None None.
(** Flipper.cpp:50-72; the default arguments of init are 0,0 (Flipper.hpp:83-85) *)
Definition fl_new0 : flipper := fl_init fl_raw 0 0.
Definition fl_new (nV nC : Z) : flipper := fl_init fl_raw nV nC.

(** One array of get: "if ( ( _X != 0 ) && ( X != 0 ) ) memcpy( _X,X, dim )".
    The dimension is evaluated only if both pointers are non-NULL. *)
Definition getArr (dst : option arr) (src : option arr) (dim : res Z) : res (option arr) :=
  match dst, src with
  | Some d, Some x => k <- dim ;; d' <- memcpy d x k ;; Ok (Some d')
  | _, _ => Ok dst
  end.

(** Flipper.cpp:133-157.  The caller's objects and arrays are arguments and
    results; [None] is a NULL pointer. *)
Definition fl_get (s : flipper) (b : option subjectTo) (R : option arr) (c : option subjectTo) (Q T : option arr)
  : res (option subjectTo * option arr * option subjectTo * option arr * option arr) :=
  let b' := match b with Some _ => Some (fl_bounds s) | None => None end in
  let c' := match c with Some _ => Some (fl_constraints s) | None => None end in
  R' <- getArr R (fl_R s) (fl_dimRQ s) ;;
  Q' <- getArr Q (fl_Q s) (fl_dimRQ s) ;;
  T' <- getArr T (fl_T s) (fl_getDimT s) ;;
  Ok (b', R', c', Q', T').

(** One array of set: allocate if NULL, then memcpy.  [new real_t[k]] is filled
    with [junk k] (contents of fresh memory). *)
Definition setArr (junk : Z -> arr) (mine : option arr) (src : option arr) (dim : res Z) : res (option arr) :=
  match src with
  | None => Ok mine
  | Some x =>
      d <- match mine with Some d => Ok d | None => k <- dim ;; Ok (junk k) end ;;
      k <- dim ;; d' <- memcpy d x k ;; Ok (Some d')
  end.

(** Flipper.cpp:163-199 *)
Definition fl_set (junk : Z -> arr) (s : flipper) (b : option subjectTo) (R : option arr)
    (c : option subjectTo) (Q T : option arr) : res flipper :=
  let b' := match b with Some x => x | None => fl_bounds s end in
  let c' := match c with Some x => x | None => fl_constraints s end in
  R' <- setArr junk (fl_R s) R (fl_dimRQ s) ;;
  Q' <- setArr junk (fl_Q s) Q (fl_dimRQ s) ;;
  T' <- setArr junk (fl_T s) T (fl_getDimT s) ;;
  Ok (mkFl (fl_nV s) (fl_nC s) b' c' R' Q' T').

(** Flipper.cpp:233-237: the dimensions are not copied. *)
Definition fl_copy (junk : Z -> arr) (s rhs : flipper) : res flipper :=
  fl_set junk s (Some (fl_bounds rhs)) (fl_R rhs) (Some (fl_constraints rhs)) (fl_Q rhs) (fl_T rhs).

(** Flipper.cpp:78-85 *)
Definition fl_copyctor (junk : Z -> arr) (rhs : flipper) : res flipper := fl_copy junk fl_raw rhs.
(** Flipper.cpp:100-109 (this != &rhs) *)
Definition fl_assign (junk : Z -> arr) (s rhs : flipper) : res flipper := fl_copy junk (fl_clear s) rhs.
End Flipper.
Arguments flipper : clear implicits.
