(** Model of class Indexlist.

    Follows src/Indexlist.cpp:47-312 and include/qpOASES/Indexlist.ipp:47-84.
    The two heap arrays are lists; a NULL array is the empty list.  Memory
    obtained by [new int_t[n]] is uninitialised: [il_init] takes the arbitrary
    initial contents as arguments.  Pointers to index lists passed by the
    callers are never NULL in the library and are not modelled as such. *)
From Verif Require Import Base Types.

(** Indexlist.hpp: number, iSort, length, physicallength *)
Record indexlist := mkIL {
  il_number : list Z;
  il_iSort  : list Z;
  il_length : Z;
  il_phys   : Z
}.

(** Indexlist.cpp:108-126.  [jn], [js]: contents of the fresh allocations. *)
Definition il_init (n : Z) (jn js : list Z) : returnValue * indexlist :=
  if n <? 0 then (RET_INVALID_ARGUMENTS, mkIL [] [] 0 0)
  else (SUCCESSFUL_RETURN, mkIL jn js 0 n).

(** The constructors and [init] give both arrays [n] elements. *)
Definition il_new (n : Z) : indexlist :=
  mkIL (repeat 0 (Z.to_nat n)) (repeat 0 (Z.to_nat n)) 0 n.

(** Indexlist.cpp:304-309, bisection loop *)
Definition il_bisect (s : indexlist) (i : Z) (st : Z * Z) : res (Z * Z) :=
  while_ (S (Z.to_nat (il_length s)))
    (fun '(fst, lst) => Ok (fst <? lst - 1))
    (fun '(fst, lst) =>
       let mid := Z.quot (fst + lst) 2 in
       k <- rd (il_iSort s) mid ;;
       v <- rd (il_number s) k ;;
       if v <=? i then Ok (mid, lst) else Ok (fst, mid))
    st.

(** Indexlist.cpp:295-312 *)
Definition il_findInsert (s : indexlist) (i : Z) : res Z :=
  if il_length s =? 0 then Ok (-1) else
  k0 <- rd (il_iSort s) 0 ;;
  v0 <- rd (il_number s) k0 ;;
  if i <? v0 then Ok (-1) else
  kl <- rd (il_iSort s) (il_length s - 1) ;;
  vl <- rd (il_number s) kl ;;
  if vl <=? i then Ok (il_length s - 1) else
  '(fst, _) <- il_bisect s i (0, il_length s - 1) ;;
  Ok fst.

(** Indexlist.cpp:157-161 *)
Definition il_getIndex (s : indexlist) (givennumber : Z) : res Z :=
  index <- il_findInsert s givennumber ;;
  k <- rd (il_iSort s) index ;;
  v <- rd (il_number s) k ;;
  if v =? givennumber then Ok k else Ok (-1).

(** Indexlist.ipp:78-84 *)
Definition il_isMember (s : indexlist) (v : Z) : res bool :=
  k <- il_getIndex s v ;; Ok (0 <=? k).

(** Indexlist.ipp:47-54.  The check admits [physicalindex = length]. *)
Definition il_getNumber (s : indexlist) (k : Z) : res Z :=
  if (k <? 0) || (il_length s <? k) then Ok (- rv_code RET_INDEXLIST_OUTOFBOUNDS)
  else rd (il_number s) k.

(** Indexlist.ipp:69-72 *)
Definition il_getLastNumber (s : indexlist) : res Z := rd (il_number s) (il_length s - 1).

(** Indexlist.cpp:167-181 *)
Definition il_addNumber (s : indexlist) (addnumber : Z) : res (returnValue * indexlist) :=
  if il_phys s <=? il_length s then Ok (RET_INDEXLIST_EXCEEDS_MAX_LENGTH, s) else
  number <- wr (il_number s) (il_length s) addnumber ;;
  let s1 := mkIL number (il_iSort s) (il_length s) (il_phys s) in
  j <- il_findInsert s1 addnumber ;;
  iSort <- for_dn (il_length s) (j + 1) (fun i a => v <- rd a (i - 1) ;; wr a i v) (il_iSort s) ;;
  iSort <- wr iSort (j + 1) (il_length s) ;;
  Ok (SUCCESSFUL_RETURN, mkIL number iSort (il_length s + 1) (il_phys s)).

(** Indexlist.cpp:187-211 *)
Definition il_removeNumber (s : indexlist) (removenumber : Z) : res (returnValue * indexlist) :=
  idx <- il_findInsert s removenumber ;;
  iSidx <- rd (il_iSort s) idx ;;
  v <- rd (il_number s) iSidx ;;
  if negb (v =? removenumber) then Ok (SUCCESSFUL_RETURN, s) else
  iSort <- for_up 0 (il_length s)
             (fun i a => x <- rd a i ;; if iSidx <? x then wr a i (x - 1) else Ok a) (il_iSort s) ;;
  iSort <- for_up (idx + 1) (il_length s) (fun i a => x <- rd a i ;; wr a (i - 1) x) iSort ;;
  number <- for_up iSidx (il_length s - 1) (fun i a => x <- rd a (i + 1) ;; wr a i x) (il_number s) ;;
  number <- wr number (il_length s - 1) (-1) ;;
  Ok (SUCCESSFUL_RETURN, mkIL number iSort (il_length s - 1) (il_phys s)).

(** Indexlist.cpp:217-237 *)
Definition il_swapNumbers (s : indexlist) (number1 number2 : Z) : res (returnValue * indexlist) :=
  index1 <- il_findInsert s number1 ;;
  index2 <- il_findInsert s number2 ;;
  s1 <- rd (il_iSort s) index1 ;;
  v1 <- rd (il_number s) s1 ;;
  (* the || of line 223 short-circuits: the second operand is read only if the first holds *)
  if negb (v1 =? number1) then Ok (RET_INDEXLIST_CORRUPTED, s) else
  s2 <- rd (il_iSort s) index2 ;;
  v2 <- rd (il_number s) s2 ;;
  if negb (v2 =? number2) then Ok (RET_INDEXLIST_CORRUPTED, s) else
  number <- wr (il_number s) s1 v2 ;;
  number <- wr number s2 v1 ;;
  iSort <- wr (il_iSort s) index1 s2 ;;
  iSort <- wr iSort index2 s1 ;;
  Ok (SUCCESSFUL_RETURN, mkIL number iSort (il_length s) (il_phys s)).

(** Indexlist.cpp:269-293 (and 92-101): deep copy, loop by loop. *)
Definition il_copy (rhs : indexlist) (jn js : list Z) : res indexlist :=
  if (zlen (il_number rhs) =? 0) then Ok (mkIL [] [] (il_length rhs) (il_phys rhs)) else
  number <- for_up 0 (il_phys rhs) (fun i a => v <- rd (il_number rhs) i ;; wr a i v) jn ;;
  iSort <- for_up 0 (il_phys rhs) (fun i a => v <- rd (il_iSort rhs) i ;; wr a i v) js ;;
  Ok (mkIL number iSort (il_length rhs) (il_phys rhs)).
