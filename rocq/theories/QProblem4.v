(** Model of src/QProblem.cpp: types of the constraints. *)
From Verif Require Import Base Types Num Options Indexlist SubjectTo Flipper Matrices LinAlg QProblemB QProblem QProblem2 QProblem3.

Section QP4.
Context {N : Num}.
Notation arr := (list N).
Notation qp := (qp N).
Variable junk : Z -> arr.

(** QProblem.cpp:1944-2029; always successful *)
Definition p_setupSubjectToType (lbn ubn lbAn ubAn : option arr) (s : qp) : res qp :=
  b <- setupSubjectToType lbn ubn (p_b s) ;;
  let s := set_p_b b s in
  lo <- someFinite lbAn (pC s) (fun v => v >' -' nINFTY) ;;
  up <- someFinite ubAn (pC s) (fun v => v <' nINFTY) ;;
  let c := st_setNoUpper (st_setNoLower (p_cons s) (negb lo)) (negb up) in
  let o := p_opts s in
  let unless_off i (f : subjectTo -> res subjectTo) (c : subjectTo) : res subjectTo := t <- st_getType c i ;; if is_stt t ST_DISABLED then Ok c else f c in
  c <- match lbAn, ubAn with
       | Some ln, Some un =>
           for_up 0 (pC s) (fun i => unless_off i (fun c =>
             l <- rd ln i ;; u <- rd un i ;;
             if (l <' -' nINFTY +' o_boundTolerance o) && (u >' nINFTY -' o_boundTolerance o)
                && negb (o_enableFarBounds o) then b_setType c i ST_UNBOUNDED
             else
               lc <- rd (p_lbA s) i ;; uc <- rd (p_ubA s) i ;;
               if o_enableEqualities o && (lc >' uc -' o_boundTolerance o) && (l >' u -' o_boundTolerance o)
               then b_setType c i ST_EQUALITY else b_setType c i ST_BOUNDED)) c
       | None, None => for_up 0 (pC s) (fun i => unless_off i (fun c => b_setType c i ST_UNBOUNDED)) c
       | _, _ => for_up 0 (pC s) (fun i => unless_off i (fun c => b_setType c i ST_BOUNDED)) c
       end ;;
  Ok (set_p_cons c s).
End QP4.
