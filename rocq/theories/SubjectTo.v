(** Model of classes SubjectTo, Bounds and Constraints.

    SubjectTo: src/SubjectTo.cpp:47-281, include/qpOASES/SubjectTo.ipp:47-150.
    Bounds: src/Bounds.cpp:102-506, include/qpOASES/Bounds.ipp.
    Constraints: src/Constraints.cpp:101-491.

    Bounds and Constraints are the same class up to names and error codes:
    the "inactive" list is [freee] for Bounds and [inactive] for Constraints,
    the "active" list is [fixed] for Bounds and [active] for Constraints.  One
    record [subjectTo] models both; [kind] selects the error codes.  The NULL
    checks of the status array become the emptiness check [n = 0]
    (SubjectTo.cpp:121 allocates iff n > 0). *)
From Verif Require Import Base Types Indexlist.

Inductive stkind := KBounds | KConstraints.

Record subjectTo := mkST {
  st_n : Z;
  st_type : list SubjectToType;
  st_status : list SubjectToStatus;
  st_noLower : bool;
  st_noUpper : bool;
  st_ina : indexlist;   (* Bounds::freee / Constraints::inactive *)
  st_act : indexlist    (* Bounds::fixed / Constraints::active *)
}.

Definition st_set_type s v := mkST (st_n s) v (st_status s) (st_noLower s) (st_noUpper s) (st_ina s) (st_act s).
Definition st_set_status s v := mkST (st_n s) (st_type s) v (st_noLower s) (st_noUpper s) (st_ina s) (st_act s).
Definition st_set_ina s v := mkST (st_n s) (st_type s) (st_status s) (st_noLower s) (st_noUpper s) v (st_act s).
Definition st_set_act s v := mkST (st_n s) (st_type s) (st_status s) (st_noLower s) (st_noUpper s) (st_ina s) v.
(** SubjectTo.ipp:120-132 *)
Definition st_setNoLower s b := mkST (st_n s) (st_type s) (st_status s) b (st_noUpper s) (st_ina s) (st_act s).
Definition st_setNoUpper s b := mkST (st_n s) (st_type s) (st_status s) (st_noLower s) b (st_ina s) (st_act s).

(** Bounds.cpp:102-117, Constraints.cpp:101-116, SubjectTo.cpp:107-134.
    A negative size is rejected before anything is changed. *)
Definition st_init (s : subjectTo) (n : Z) : returnValue * subjectTo :=
  if n <? 0 then (RET_INVALID_ARGUMENTS, s)
  else (SUCCESSFUL_RETURN,
        mkST n (repeat ST_UNKNOWN (Z.to_nat n)) (repeat ST_UNDEFINED (Z.to_nat n)) true true
             (il_new n) (il_new n)).

Definition st_empty : subjectTo := mkST 0 [] [] true true (il_new 0) (il_new 0).
(** Constructor Bounds(n) / Constraints(n) *)
Definition st_new (n : Z) : subjectTo := snd (st_init st_empty n).

(** SubjectTo.ipp:66-84 *)
Definition st_getType (s : subjectTo) (i : Z) : res SubjectToType :=
  if (0 <=? i) && (i <? st_n s) then rd (st_type s) i else Ok ST_UNKNOWN.
Definition st_getStatus (s : subjectTo) (i : Z) : res SubjectToStatus :=
  if (0 <=? i) && (i <? st_n s) then rd (st_status s) i else Ok ST_UNDEFINED.

(** SubjectTo.ipp:90-114 *)
Definition st_setType (s : subjectTo) (i : Z) (v : SubjectToType) : res (returnValue * subjectTo) :=
  if (0 <=? i) && (i <? st_n s) then
    t <- wr (st_type s) i v ;; Ok (SUCCESSFUL_RETURN, st_set_type s t)
  else Ok (RET_INDEX_OUT_OF_BOUNDS, s).
Definition st_setStatus (s : subjectTo) (i : Z) (v : SubjectToStatus) : res (returnValue * subjectTo) :=
  if (0 <=? i) && (i <? st_n s) then
    t <- wr (st_status s) i v ;; Ok (SUCCESSFUL_RETURN, st_set_status s t)
  else Ok (RET_INDEX_OUT_OF_BOUNDS, s).

(** SubjectTo.ipp:47-60 *)
Definition st_getNumberOfType (s : subjectTo) (t : SubjectToType) : res Z :=
  if st_n s =? 0 then Ok 0 else
  for_up 0 (st_n s) (fun i c => x <- rd (st_type s) i ;; Ok (if stt_eq_dec x t then c + 1 else c)) 0.

(** Which of the two index lists a call addresses. *)
Inductive whichlist := LIna | LAct.
Definition st_list (s : subjectTo) (w : whichlist) := match w with LIna => st_ina s | LAct => st_act s end.
Definition st_set_list s w l := match w with LIna => st_set_ina s l | LAct => st_set_act s l end.

(** SubjectTo.cpp:199-223 *)
Definition st_addIndex (s : subjectTo) (w : whichlist) (newnumber : Z) (newstatus : SubjectToStatus)
  : res (returnValue * subjectTo) :=
  if st_n s =? 0 then Ok (RET_ADDINDEX_FAILED, s) else
  old <- rd (st_status s) newnumber ;;
  if sts_eq_dec old newstatus then Ok (RET_INDEX_ALREADY_OF_DESIRED_STATUS, s) else
  stat <- wr (st_status s) newnumber newstatus ;;
  let s1 := st_set_status s stat in
  '(r, l) <- il_addNumber (st_list s1 w) newnumber ;;
  if r =r? RET_INDEXLIST_EXCEEDS_MAX_LENGTH then Ok (RET_ADDINDEX_FAILED, st_set_list s1 w l)
  else Ok (SUCCESSFUL_RETURN, st_set_list s1 w l).

(** SubjectTo.cpp:229-247 *)
Definition st_removeIndex (s : subjectTo) (w : whichlist) (removenumber : Z)
  : res (returnValue * subjectTo) :=
  if st_n s =? 0 then Ok (RET_REMOVEINDEX_FAILED, s) else
  stat <- wr (st_status s) removenumber ST_UNDEFINED ;;
  let s1 := st_set_status s stat in
  '(r, l) <- il_removeNumber (st_list s1 w) removenumber ;;
  if r =r? SUCCESSFUL_RETURN then Ok (SUCCESSFUL_RETURN, st_set_list s1 w l)
  else Ok (RET_REMOVEINDEX_FAILED, st_set_list s1 w l).

(** SubjectTo.cpp:253-281 *)
Definition st_swapIndex (s : subjectTo) (w : whichlist) (number1 number2 : Z)
  : res (returnValue * subjectTo) :=
  if st_n s =? 0 then Ok (RET_SWAPINDEX_FAILED, s) else
  a <- rd (st_status s) number1 ;;
  b <- rd (st_status s) number2 ;;
  if sts_eq_dec a b then
    if number1 =? number2 then Ok (SUCCESSFUL_RETURN, s) else
    '(r, l) <- il_swapNumbers (st_list s w) number1 number2 ;;
    if r =r? SUCCESSFUL_RETURN then Ok (SUCCESSFUL_RETURN, st_set_list s w l)
    else Ok (RET_SWAPINDEX_FAILED, st_set_list s w l)
  else Ok (RET_SWAPINDEX_FAILED, s).

Definition err_setup (k : stkind) :=
  match k with KBounds => RET_SETUP_BOUND_FAILED | KConstraints => RET_SETUP_CONSTRAINT_FAILED end.
(** Both classes report a failed move as RET_MOVING_BOUND_FAILED
    (Bounds.cpp:195-219, Constraints.cpp:194-218); only flipFixed differs. *)
Definition err_flip (k : stkind) :=
  match k with KBounds => RET_MOVING_BOUND_FAILED | KConstraints => RET_MOVING_CONSTRAINT_FAILED end.

Definition st_inrange (s : subjectTo) (number : Z) : bool := (0 <=? number) && (number <? st_n s).

(** Bounds.cpp:124-154, Constraints.cpp:123-153 *)
Definition st_setup (k : stkind) (s : subjectTo) (number : Z) (status : SubjectToStatus)
  : res (returnValue * subjectTo) :=
  if negb (st_inrange s number) then Ok (RET_INDEX_OUT_OF_BOUNDS, s) else
  let add w := '(r, s') <- st_addIndex s w number status ;;
               if r =r? SUCCESSFUL_RETURN then Ok (SUCCESSFUL_RETURN, s') else Ok (err_setup k, s') in
  match status with
  | ST_INACTIVE => add LIna
  | ST_LOWER => add LAct
  | ST_UPPER => add LAct
  | _ => Ok (RET_INVALID_ARGUMENTS, s)
  end.

(** Bounds.cpp:187-201, Constraints.cpp:186-200: moveFixedToFree / moveActiveToInactive *)
Definition st_deactivate (s : subjectTo) (number : Z) : res (returnValue * subjectTo) :=
  if negb (st_inrange s number) then Ok (RET_INDEX_OUT_OF_BOUNDS, s) else
  '(r, s1) <- st_removeIndex s LAct number ;;
  if negb (r =r? SUCCESSFUL_RETURN) then Ok (RET_MOVING_BOUND_FAILED, s1) else
  '(r, s2) <- st_addIndex s1 LIna number ST_INACTIVE ;;
  if negb (r =r? SUCCESSFUL_RETURN) then Ok (RET_MOVING_BOUND_FAILED, s2) else
  Ok (SUCCESSFUL_RETURN, s2).

(** Bounds.cpp:207-222, Constraints.cpp:206-221: moveFreeToFixed / moveInactiveToActive.
    The requested status is not checked. *)
Definition st_activate (s : subjectTo) (number : Z) (status : SubjectToStatus) : res (returnValue * subjectTo) :=
  if negb (st_inrange s number) then Ok (RET_INDEX_OUT_OF_BOUNDS, s) else
  '(r, s1) <- st_removeIndex s LIna number ;;
  if negb (r =r? SUCCESSFUL_RETURN) then Ok (RET_MOVING_BOUND_FAILED, s1) else
  '(r, s2) <- st_addIndex s1 LAct number status ;;
  if negb (r =r? SUCCESSFUL_RETURN) then Ok (RET_MOVING_BOUND_FAILED, s2) else
  Ok (SUCCESSFUL_RETURN, s2).

(** Bounds.cpp:228-243, Constraints.cpp:227-242 *)
Definition st_flipFixed (k : stkind) (s : subjectTo) (number : Z) : res (returnValue * subjectTo) :=
  if negb (st_inrange s number) then Ok (RET_INDEX_OUT_OF_BOUNDS, s) else
  v <- rd (st_status s) number ;;
  match v with
  | ST_LOWER => t <- wr (st_status s) number ST_UPPER ;; Ok (SUCCESSFUL_RETURN, st_set_status s t)
  | ST_UPPER => t <- wr (st_status s) number ST_LOWER ;; Ok (SUCCESSFUL_RETURN, st_set_status s t)
  | _ => Ok (err_flip k, s)
  end.

(** Bounds.cpp:249-258 (Bounds only) *)
Definition st_swapFree (s : subjectTo) (number1 number2 : Z) : res (returnValue * subjectTo) :=
  if negb (st_inrange s number1) || negb (st_inrange s number2) then Ok (RET_INDEX_OUT_OF_BOUNDS, s)
  else st_swapIndex s LIna number1 number2.

(** Bounds.cpp:466-503 / Constraints.cpp:450-487: one of the four passes of setupAll *)
Definition st_setupPass (k : stkind) (sel : SubjectToType -> bool) (status : SubjectToStatus) (s : subjectTo)
  : res (ctl subjectTo (returnValue * subjectTo)) :=
  forb_up 0 (st_n s) (fun i s =>
    t <- st_getType s i ;;
    if sel t then
      '(r, s') <- st_setup k s i status ;;
      if r =r? SUCCESSFUL_RETURN then Ok (Next s') else Ok (Brk (err_setup k, s'))
    else Ok (Next s)) s.

Definition is_unbounded t := if stt_eq_dec t ST_UNBOUNDED then true else false.
Definition is_bounded t := if stt_eq_dec t ST_BOUNDED then true else false.
Definition is_equality t := if stt_eq_dec t ST_EQUALITY then true else false.
Definition is_rest t := match t with ST_UNKNOWN => true | ST_DISABLED => true | _ => false end.

(** Bounds.cpp:461-506, Constraints.cpp:445-491 *)
Definition st_setupAll (k : stkind) (s : subjectTo) (status : SubjectToStatus) : res (returnValue * subjectTo) :=
  c <- st_setupPass k is_unbounded status s ;;
  match c with Brk e => Ok e | Next s =>
  c <- st_setupPass k is_bounded status s ;;
  match c with Brk e => Ok e | Next s =>
  c <- st_setupPass k is_equality status s ;;
  match c with Brk e => Ok e | Next s =>
  c <- st_setupPass k is_rest status s ;;
  match c with Brk e => Ok e | Next s => Ok (SUCCESSFUL_RETURN, s) end end end end.

(** Bounds.cpp:286-316 / 361-391 (and the Constraints copies): rebuild the index
    lists from the statuses; on failure the new lists are dropped but type and
    status stay as they are. *)
Definition st_rebuild (err : returnValue) (s : subjectTo) : res (returnValue * subjectTo) :=
  c <- forb_up 0 (st_n s) (fun i '(fr, fx) =>
         v <- st_getStatus s i ;;
         match v with
         | ST_INACTIVE => '(r, fr') <- il_addNumber fr i ;;
             if r =r? SUCCESSFUL_RETURN then Ok (Next (fr', fx)) else Ok (Brk err)
         | ST_LOWER => '(r, fx') <- il_addNumber fx i ;;
             if r =r? SUCCESSFUL_RETURN then Ok (Next (fr, fx')) else Ok (Brk err)
         | ST_UPPER => '(r, fx') <- il_addNumber fx i ;;
             if r =r? SUCCESSFUL_RETURN then Ok (Next (fr, fx')) else Ok (Brk err)
         | _ => Ok (Brk err)
         end) (il_new (st_n s), il_new (st_n s)) ;;
  match c with
  | Brk e => Ok (e, s)
  | Next (fr, fx) => Ok (SUCCESSFUL_RETURN, st_set_act (st_set_ina s fr) fx)
  end.

(** Bounds.cpp:280-284 / 347-351: the return values of setType/setStatus are ignored *)
Definition st_shiftDown (s : subjectTo) (offset : Z) : res subjectTo :=
  for_up 0 (st_n s - offset) (fun i s =>
    t <- st_getType s (i + offset) ;;
    '(_, s) <- st_setType s i t ;;
    v <- st_getStatus s (i + offset) ;;
    '(_, s) <- st_setStatus s i v ;;
    Ok s) s.

(** Bounds.cpp:264-319, Constraints.cpp:248-303.  C's / and % on non-negative
    operands. *)
Definition st_shift (s : subjectTo) (offset : Z) : res (returnValue * subjectTo) :=
  if (offset =? 0) || (st_n s <=? 1) then Ok (SUCCESSFUL_RETURN, s) else
  if (offset <? 0) || (Z.quot (st_n s) 2 <? offset) then Ok (RET_INDEX_OUT_OF_BOUNDS, s) else
  if negb (Z.rem (st_n s) offset =? 0) then Ok (RET_INVALID_ARGUMENTS, s) else
  s1 <- st_shiftDown s offset ;;
  st_rebuild RET_SHIFTING_FAILED s1.

(** Bounds.cpp:325-394, Constraints.cpp:309-378 *)
Definition st_rotate (s : subjectTo) (offset : Z) : res (returnValue * subjectTo) :=
  if (offset =? 0) || (offset =? st_n s) || (st_n s <=? 1) then Ok (SUCCESSFUL_RETURN, s) else
  if (offset <? 0) || (st_n s <? offset) then Ok (RET_INDEX_OUT_OF_BOUNDS, s) else
  '(ty, ss) <- for_up 0 offset (fun i '(ty, ss) =>
       t <- st_getType s i ;; ty <- wr ty i t ;;
       v <- st_getStatus s i ;; ss <- wr ss i v ;; Ok (ty, ss))
     (repeat ST_UNKNOWN (Z.to_nat offset), repeat ST_UNDEFINED (Z.to_nat offset)) ;;
  s1 <- st_shiftDown s offset ;;
  s2 <- for_up (st_n s - offset) (st_n s) (fun i s =>
       t <- rd ty (i - st_n s + offset) ;;
       '(_, s) <- st_setType s i t ;;
       v <- rd ss (i - st_n s + offset) ;;
       '(_, s) <- st_setStatus s i v ;;
       Ok s) s1 ;;
  st_rebuild RET_ROTATING_FAILED s2.

(** SubjectTo.cpp:166-193, Bounds.cpp:447-454 with Indexlist.cpp:92-101: copies.
    Bounds(const Bounds&) and operator= copy the SubjectTo part and both lists. *)
Definition st_copy (rhs : subjectTo) : res subjectTo :=
  '(t, v) <- (if st_n rhs =? 0 then Ok ([], [])
              else for_up 0 (st_n rhs) (fun i '(t, v) =>
                     x <- rd (st_type rhs) i ;; t <- wr t i x ;;
                     y <- rd (st_status rhs) i ;; v <- wr v i y ;; Ok (t, v))
                   (repeat ST_UNKNOWN (Z.to_nat (st_n rhs)), repeat ST_UNDEFINED (Z.to_nat (st_n rhs)))) ;;
  let junk l := repeat 0 (Z.to_nat (il_phys l)) in
  a <- il_copy (st_ina rhs) (junk (st_ina rhs)) (junk (st_ina rhs)) ;;
  b <- il_copy (st_act rhs) (junk (st_act rhs)) (junk (st_act rhs)) ;;
  Ok (mkST (st_n rhs) t v (st_noLower rhs) (st_noUpper rhs) a b).

(** Bounds.ipp:82-94 *)
Definition st_nIna (s : subjectTo) : Z := il_length (st_ina s).
Definition st_nAct (s : subjectTo) : Z := il_length (st_act s).
