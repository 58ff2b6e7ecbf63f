(** Model of class QProblem, third part: construction, reset and loading of data. *)
From Verif Require Import Base Types Num Indexlist SubjectTo Options Flipper Utils Matrices LinAlg QProblemB QProblem.

Section QProblem3.
Context {N : Num}.
Notation arr := (list N).
Notation qpb := (qpb N).
Notation qp := (qp N).
Variable junk : Z -> arr.

(** QProblem.cpp:82-176 with allocDenseMats = BT_TRUE; the member tempC is only
    used inside setA with a Matrix argument and is modelled there. *)
Definition p_new (_nV _nC : Z) (h : HessianType) (o : options N) : qp :=
  let n := if _nV <=? 0 then 1 else _nV in
  let m := if _nC <? 0 then 0 else _nC in
  let b := qb_new junk _nV h o in
  let sT := Z.min n m in
  mkP (set_q_flip (fl_init (q_flip b) n m) (set_q_y (zeros (n + m)) b))
      (if 0 <? m then None else Some (ADense (mkDense 0 0 0 []))) (negb (0 <? m)) (zeros m) (zeros m) (st_new m)
      (junk (sT * sT)) (junk (n * n)) sT (junk m) (junk m) (junk m) (junk n) (junk m) (junk n) (junk n) (junk m) (junk m).

(** QProblem.cpp:219-252 *)
Definition p_reset (s : qp) : res (returnValue * qp) :=
  let n := pV s in let m := pC s in
  if n =? 0 then Ok (RET_QPOBJECT_NOT_SETUP, s) else
  '(r, b) <- qb_reset (p_b s) ;;
  let s := set_p_b b s in
  if negb (r =r? SUCCESSFUL_RETURN) then Ok (RET_RESET_FAILED, s) else
  let s := set_p_cons (snd (st_init (p_cons s) m)) s in
  T <- for_up 0 (p_sizeT s * p_sizeT s) (fun i T => wr T i n0) (p_T s) ;;
  Q <- for_up 0 (n * n) (fun i Q => wr Q i n0) (p_Q s) ;;
  Ok (SUCCESSFUL_RETURN, up_b (fun b => set_q_flip (fl_init (q_flip b) n m) b) (set_p_Q Q (set_p_T T s))).

Definition a_getRowNorm (M : amat N) (norm : arr) : res arr :=
  match M with ADense A => d_getRowNorm A norm 2 | ASparse A => '(_, v) <- s_getRowNorm A norm 2 ;; Ok v | ASprow A => r_getRowNorm A norm 2 end.

(** the constraint matrix passed by the user *)
Inductive aarg := AMat (M : option (amat N)) | AArr (a : option arr).
Definition aarg_null (A : aarg) : bool := match A with AMat None | AArr None => true | _ => false end.

(** QProblem.ipp:124-138, 171-178 *)
Definition a_activity (M : amat N) (s : qp) : res qp :=
  Ax <- a_times M 1 n1 (q_x (p_b s)) (pV s) n0 (p_Ax s) (pC s) ;;
  '(Axu, Axl) <- for_up 0 (pC s) (fun j '(Axu, Axl) =>
    u <- rd (p_ubA s) j ;; l <- rd (p_lbA s) j ;; a <- rd Ax j ;;
    Axu <- wr Axu j (u -' a) ;; Axl <- wr Axl j (a -' l) ;; Ok (Axu, Axl)) (p_Ax_u s, p_Ax_l s) ;;
  Ok (set_p_Ax_l Axl (set_p_Ax_u Axu (set_p_Ax Ax s))).

(** QProblem.ipp:107-142, 148-182 *)
Definition p_setA (A : aarg) (s : qp) : res (returnValue * qp) :=
  if pV s =? 0 then Ok (RET_QPOBJECT_NOT_SETUP, s) else
  match A with
  | AMat None | AArr None => Ok (RET_INVALID_ARGUMENTS, s)
  | AMat (Some M) =>
      let s := set_p_freeA false (set_p_A (Some M) s) in
      norm <- a_getRowNorm M (junk (pC s)) ;;
      s <- a_activity M s ;;
      c <- for_up 0 (pC s) (fun j c =>
        v <- rd norm j ;;
        if isZero v then '(_, c) <- st_setType c j ST_DISABLED ;; Ok c else Ok c) (p_cons s) ;;
      Ok (SUCCESSFUL_RETURN, set_p_cons c s)
  | AArr (Some a) =>
      let M := ADense (mkDense (pC s) (pV s) (pV s) a) in
      let s := set_p_freeA true (set_p_A (Some M) s) in
      s <- a_activity M s ;;
      Ok (SUCCESSFUL_RETURN, s)
  end.

(** QProblem.cpp:5786-5848, 5854-5879 *)
Definition p_setupQPdata (h : harg N) (g : option arr) (A : aarg) (lb ub lbA ubA : option arr) (s : qp) : res (returnValue * qp) :=
  '(r, b) <- setupQPdata h g lb ub (p_b s) ;;
  let s := set_p_b b s in
  if negb (r =r? SUCCESSFUL_RETURN) then Ok (RET_INVALID_ARGUMENTS, s) else
  if (0 <? pC s) && aarg_null A then Ok (RET_INVALID_ARGUMENTS, s) else
  if 0 <? pC s then
    l <- setVec (p_lbA s) lbA (pC s) (-' nINFTY) ;;
    u <- setVec (p_ubA s) ubA (pC s) nINFTY ;;
    '(_, s) <- p_setA A (set_p_ubA u (set_p_lbA l s)) ;;
    Ok (SUCCESSFUL_RETURN, s)
  else Ok (SUCCESSFUL_RETURN, s).
End QProblem3.
