(** Who owns which matrix memory: the pointers H and A of the solver classes, the
    flags freeHessian and freeConstraintMatrix, and the arrays behind the matrix
    objects.

    Simplifications.  A matrix object has one array (sparse matrices: ir, jc, val and
    jd are allocated and freed together).  Contents are not modelled: whether a call
    is refused or fails, and where, is a parameter of the call, so every outcome is
    covered.  Reading through a null pointer is not an error here; this model is
    about freed memory only.  The vectors of the solver (g, lb, ...) are copied by
    value in the code and never shared.

    [lent_m], [lent_a], [carr] and [cmat] do not exist in the program.  They record
    what belongs to the caller and what the caller has passed to which object. *)
From Verif Require Import Base.

Record mobj := mkM { mo_arr : nat; mo_owns : bool; mo_dense : bool }.
Definition slot := (nat * bool)%type.      (* solver object, true: H, false: A *)
Record world := mkW {
  arrs : nat -> bool;                (* allocated arrays *)
  mats : nat -> option mobj;         (* allocated matrix objects *)
  nxt : nat;                         (* next address *)
  alive : nat -> bool;               (* existing solver objects *)
  hasC : nat -> bool;                (* their nC > 0 *)
  ptr : slot -> option nat;          (* H, A *)
  flg : slot -> bool;                (* freeHessian, freeConstraintMatrix *)
  carr : nat -> bool;                (* arrays the caller has to free *)
  cmat : nat -> bool;                (* matrix objects the caller has to free *)
  lent_m : slot -> nat -> bool;      (* matrix objects and arrays passed to an object *)
  lent_a : slot -> nat -> bool }.

Definition slot_dec (s t : slot) : {s = t} + {s <> t}.
Proof. decide equality; [apply Bool.bool_dec|apply Nat.eq_dec]. Defined.
Definition upd {A} (f : nat -> A) (k : nat) (v : A) : nat -> A := fun x => if Nat.eq_dec x k then v else f x.
Definition upds {A} (f : slot -> A) (s : slot) (v : A) : slot -> A := fun t => if slot_dec t s then v else f t.
Definition set_arrs x (w : world) := mkW x (mats w) (nxt w) (alive w) (hasC w) (ptr w) (flg w) (carr w) (cmat w) (lent_m w) (lent_a w).
Definition set_mats x (w : world) := mkW (arrs w) x (nxt w) (alive w) (hasC w) (ptr w) (flg w) (carr w) (cmat w) (lent_m w) (lent_a w).
Definition set_nxt x (w : world) := mkW (arrs w) (mats w) x (alive w) (hasC w) (ptr w) (flg w) (carr w) (cmat w) (lent_m w) (lent_a w).
Definition set_alive x (w : world) := mkW (arrs w) (mats w) (nxt w) x (hasC w) (ptr w) (flg w) (carr w) (cmat w) (lent_m w) (lent_a w).
Definition set_hasC x (w : world) := mkW (arrs w) (mats w) (nxt w) (alive w) x (ptr w) (flg w) (carr w) (cmat w) (lent_m w) (lent_a w).
Definition set_ptr x (w : world) := mkW (arrs w) (mats w) (nxt w) (alive w) (hasC w) x (flg w) (carr w) (cmat w) (lent_m w) (lent_a w).
Definition set_flg x (w : world) := mkW (arrs w) (mats w) (nxt w) (alive w) (hasC w) (ptr w) x (carr w) (cmat w) (lent_m w) (lent_a w).
Definition set_carr x (w : world) := mkW (arrs w) (mats w) (nxt w) (alive w) (hasC w) (ptr w) (flg w) x (cmat w) (lent_m w) (lent_a w).
Definition set_cmat x (w : world) := mkW (arrs w) (mats w) (nxt w) (alive w) (hasC w) (ptr w) (flg w) (carr w) x (lent_m w) (lent_a w).
Definition set_lent_m x (w : world) := mkW (arrs w) (mats w) (nxt w) (alive w) (hasC w) (ptr w) (flg w) (carr w) (cmat w) x (lent_a w).
Definition set_lent_a x (w : world) := mkW (arrs w) (mats w) (nxt w) (alive w) (hasC w) (ptr w) (flg w) (carr w) (cmat w) (lent_m w) x.

(** ** Memory *)
(** new real_t[..] *)
Definition new_arr (w : world) : nat * world := (nxt w, set_nxt (S (nxt w)) (set_arrs (upd (arrs w) (nxt w) true) w)).
(** delete[]: freeing twice is undefined *)
Definition free_arr (a : nat) (w : world) : res world := if arrs w a then Ok (set_arrs (upd (arrs w) a false) w) else UB.
Definition new_mat (m : mobj) (w : world) : nat * world := (nxt w, set_nxt (S (nxt w)) (set_mats (upd (mats w) (nxt w) (Some m)) w)).
(** delete M: Matrices.cpp:101-113, 708-720, 1460-1472 *)
Definition del_mat (p : nat) (w : world) : res world :=
  match mats w p with
  | None => UB
  | Some m => w <- (if mo_owns m then free_arr (mo_arr m) w else Ok w) ;; Ok (set_mats (upd (mats w) p None) w)
  end.
(** M->doFreeMemory(): Matrices.hpp:270 *)
Definition own_mat (p : nat) (w : world) : res world :=
  match mats w p with None => UB | Some m => Ok (set_mats (upd (mats w) p (Some (mkM (mo_arr m) true (mo_dense m)))) w) end.
(** reading the entries *)
Definition read_mat (p : option nat) (w : world) : res world :=
  match p with
  | None => Ok w
  | Some p => match mats w p with Some m => if arrs w (mo_arr m) then Ok w else UB | None => UB end
  end.
(** duplicate(), duplicateSym(): Matrices.cpp:114-131, 608-627, 727-754, 2117-2145.  A
    dense matrix that does not own its array shares it. *)
Definition dup_mat (p : nat) (w : world) : res (nat * world) :=
  match mats w p with
  | None => UB
  | Some m => if mo_owns m || negb (mo_dense m)
      then if arrs w (mo_arr m) then let (a, w) := new_arr w in Ok (new_mat (mkM a true (mo_dense m)) w) else UB
      else Ok (new_mat (mkM (mo_arr m) false true) w)
  end.

(** ** The solver classes *)
(** if (freeHessian && H != 0) { delete H; H = 0; } *)
Definition release (s : slot) (w : world) : res world :=
  match ptr w s with Some p => if flg w s then w <- del_mat p w ;; Ok (set_ptr (upds (ptr w) s None) w) else Ok w | None => Ok w end.
Definition put (s : slot) (p : option nat) (f : bool) (w : world) : world := set_flg (upds (flg w) s f) (set_ptr (upds (ptr w) s p) w).
(** QProblemB.ipp:239-252 setH( SymmetricMatrix* ) *)
Definition setH_mat (i : nat) (p : option nat) (w : world) : res world := w <- release (i, true) w ;; Ok (put (i, true) p false w).
(** QProblemB.ipp:258-288 setH( real_t* ); [identity]: the type is HST_IDENTITY *)
Definition setH_arr (i : nat) (identity : bool) (a : option nat) (w : world) : res world :=
  match a with
  | None => if identity then Ok w else w <- release (i, true) w ;; Ok (put (i, true) None false w)
  | Some a => w <- release (i, true) w ;; let (p, w) := new_mat (mkM a false true) w in Ok (put (i, true) (Some p) true w)
  end.
(** QProblem.ipp:107-143 setA( Matrix* ), argument not null; A times x *)
Definition setA_mat (i : nat) (p : nat) (w : world) : res world :=
  w <- release (i, false) w ;; let w := put (i, false) (Some p) false w in read_mat (Some p) w.
(** QProblem.ipp:149-181 setA( real_t* ), argument not null *)
Definition setA_arr (i : nat) (a : nat) (w : world) : res world :=
  w <- release (i, false) w ;; let (p, w) := new_mat (mkM a false true) w in
  let w := put (i, false) (Some p) true w in read_mat (Some p) w.

(** what the caller has passed *)
Definition lend_m (s : slot) (p : nat) (w : world) : world :=
  let w := set_lent_m (upds (lent_m w) s (upd (lent_m w s) p true)) w in
  match mats w p with Some m => set_lent_a (upds (lent_a w) s (upd (lent_a w s) (mo_arr m) true)) w | None => w end.
Definition lend_a (s : slot) (a : nat) (w : world) : world := set_lent_a (upds (lent_a w) s (upd (lent_a w s) a true)) w.
(** a call that used new data successfully ends the obligation for the older data *)
Definition only_m (s : slot) (p : nat) (w : world) : world :=
  lend_m s p (set_lent_a (upds (lent_a w) s (fun _ => false)) (set_lent_m (upds (lent_m w) s (fun _ => false)) w)).
Definition only_a (s : slot) (a : nat) (w : world) : world :=
  lend_a s a (set_lent_a (upds (lent_a w) s (fun _ => false)) (set_lent_m (upds (lent_m w) s (fun _ => false)) w)).
Definition ofold {A} (f : A -> world -> world) (o : option A) (w : world) : world := match o with Some a => f a w | None => w end.

(** reading H and A, as every solve does *)
Definition read_obj (i : nat) (w : world) : res world := w <- read_mat (ptr w (i, true)) w ;; read_mat (ptr w (i, false)) w.

(** QProblem.cpp:253-308 init with matrix objects; setupQPdata 5786-5848.  [early]:
    rejected before the data are set; [gok]: g != 0. *)
Definition init_mat (i : nat) (early : bool) (H : option nat) (gok : bool) (A : option nat) (w : world) : res world :=
  if early then Ok w else
  w <- setH_mat i H w ;;
  if negb gok then Ok w else
  if hasC w i then match A with None => Ok w | Some p => w <- setA_mat i p w ;; read_obj i w end
  else read_obj i w.
(** QProblem.cpp:314-367 init with arrays; setupQPdata 5854-5880 *)
Definition init_arr (i : nat) (early identity : bool) (H : option nat) (gok : bool) (A : option nat) (w : world) : res world :=
  if early then Ok w else
  w <- setH_arr i identity H w ;;
  if negb gok then Ok w else
  if hasC w i then match A with None => Ok w | Some a => w <- setA_arr i a w ;; read_obj i w end
  else read_obj i w.
(** QProblem.cpp:374-461 init with files; setupQPdataFromFile 5885-5950,
    QProblemB.cpp:1803-1870.  [Hf], [Af]: no file, or whether reading it succeeds;
    [vok]: the vectors of QProblemB, [vokA]: those of the constraints. *)
Definition init_file (i : nat) (early identity : bool) (Hf : option bool) (vok vokA : bool) (Af : option bool) (w : world) : res world :=
  if early then Ok w else
  '(go, w) <- (match Hf with
    | Some r => let (a, w) := new_arr w in
        if r then w <- setH_arr i identity (Some a) w ;;
                  w <- (match ptr w (i, true) with Some p => own_mat p w | None => UB end) ;; Ok (true, w)
        else w <- free_arr a w ;; Ok (false, w)
    | None => w <- setH_arr i identity None w ;; Ok (true, w) end) ;;
  if negb (go && vok) then Ok w else
  if hasC w i then match Af with
    | None => Ok w
    | Some r => if negb vokA then Ok w else let (a, w) := new_arr w in
        if r then w <- setA_arr i a w ;;
                  w <- (match ptr w (i, false) with Some p => own_mat p w | None => UB end) ;; read_obj i w
        else free_arr a w end
  else read_obj i w.
(** SQProblem.cpp:346-516 setupNewAuxiliaryQP with matrix objects *)
Definition newaux (i : nat) (H A : option nat) (w : world) : res world :=
  '(go, w) <- (if hasC w i then match A with None => Ok (false, w) | Some p => w <- setA_mat i p w ;; Ok (true, w) end else Ok (true, w)) ;;
  if negb go then Ok w else
  match H with
  | Some p => w <- setH_mat i (Some p) w ;; read_obj i w
  | None => match ptr w (i, true) with Some _ => Ok w | None => read_obj i w end
  end.
(** SQProblem.cpp:521-553 with arrays *)
Definition newaux_arr (i : nat) (H A : option nat) (w : world) : res world :=
  match A with None => if hasC w i then Ok w else
     let (sH, w) := match H with Some a => let (p, w) := new_mat (mkM a false true) w in (Some p, w) | None => (None, w) end in
     w <- newaux i sH None w ;;
     let w := match H with Some _ => set_flg (upds (flg w) (i, true) true) w | None => w end in
     Ok (set_flg (upds (flg w) (i, false) true) w)
  | Some b =>
     let (pA, w) := new_mat (mkM b false true) w in
     let (sH, w) := match H with Some a => let (p, w) := new_mat (mkM a false true) w in (Some p, w) | None => (None, w) end in
     w <- newaux i sH (Some pA) w ;;
     let w := match H with Some _ => set_flg (upds (flg w) (i, true) true) w | None => w end in
     Ok (set_flg (upds (flg w) (i, false) true) w)
  end.
(** SQProblem.cpp:96-148 and 154-197 hotstart; [refused]: the status forbids it.  The
    homotopy afterwards reads H and A *)
Definition sq_mat (i : nat) (refused : bool) (H A : option nat) (w : world) : res world :=
  if refused then Ok w else w <- newaux i H A w ;; read_obj i w.
Definition sq_arr (i : nat) (refused : bool) (H A : option nat) (w : world) : res world :=
  if refused then Ok w else w <- newaux_arr i H A w ;; read_obj i w.
(** SQProblem.cpp:203-287 hotstart with files: the arrays are freed although the
    object keeps using them *)
Definition sq_file (i : nat) (noargs refused hok aok vok : bool) (w : world) : res world :=
  if noargs then Ok w else
  let (a, w) := new_arr w in let (b, w) := new_arr w in
  w <- (if hok && aok && vok then sq_arr i refused (Some a) (Some b) w else Ok w) ;;
  w <- free_arr b w ;; free_arr a w.

(** QProblemB.cpp:1024-1075, QProblem.cpp:1082-1176 clear (the derived class first) *)
Definition clear (i : nat) (w : world) : res world := w <- release (i, false) w ;; release (i, true) w.
(** QProblemB.cpp:1081-1096, QProblem.cpp:1181-1200 copy into one slot *)
Definition copy_slot (s t : slot) (w : world) : res world :=
  if flg w t then match ptr w t with
    | None => UB
    | Some p => '(q, w) <- dup_mat p w ;; Ok (put s (Some q) true w) end
  else Ok (put s (ptr w t) false w).
Definition lend_as (s t : slot) (w : world) : world :=
  set_lent_a (upds (lent_a w) s (lent_a w t)) (set_lent_m (upds (lent_m w) s (lent_m w t)) w).
(** QProblem.cpp:77-176 constructor; without constraints A is an empty matrix (its
    null array is taken for an array of its own) *)
Definition create (i : nat) (c : bool) (w : world) : res world :=
  let w := set_hasC (upd (hasC w) i c) (set_alive (upd (alive w) i true) w) in
  let w := set_lent_a (upds (upds (lent_a w) (i, true) (fun _ => false)) (i, false) (fun _ => false)) (set_lent_m (upds (upds (lent_m w) (i, true) (fun _ => false)) (i, false) (fun _ => false)) w) in
  let w := put (i, true) None false w in
  if c then Ok (put (i, false) None false w)
  else let (a, w) := new_arr w in let (p, w) := new_mat (mkM a true true) w in Ok (put (i, false) (Some p) true w).
(** QProblemB.cpp:171-178, QProblem.cpp:182-189 copy constructor *)
Definition copy_new (i j : nat) (w : world) : res world :=
  let w := set_hasC (upd (hasC w) i (hasC w j)) (set_alive (upd (alive w) i true) w) in
  let w := put (i, false) None false (put (i, true) None false w) in
  let w := lend_as (i, false) (j, false) (lend_as (i, true) (j, true) w) in
  w <- copy_slot (i, true) (j, true) w ;; copy_slot (i, false) (j, false) w.
(** QProblem.cpp:204-215, QProblemB.cpp:195-205 assignment *)
Definition assign (i j : nat) (w : world) : res world :=
  if Nat.eq_dec i j then Ok w else
  w <- clear i w ;;
  let w := set_hasC (upd (hasC w) i (hasC w j)) w in
  let w := lend_as (i, false) (j, false) (lend_as (i, true) (j, true) w) in
  w <- copy_slot (i, true) (j, true) w ;;
  w <- release (i, false) w ;; copy_slot (i, false) (j, false) w.
(** QProblem.cpp:195-198, QProblemB.cpp:184-190 destructor *)
Definition destroy (i : nat) (w : world) : res world :=
  w <- clear i w ;;
  Ok (set_alive (upd (alive w) i false) (put (i, false) None false (put (i, true) None false w))).

(** ** Calls *)
Inductive op :=
| CallerArray | CallerMatrix (a : nat) (owns dense : bool) | CallerFreeArray (a : nat) | CallerFreeMatrix (p : nat)
| Create (i : nat) (c : bool) | CopyNew (i j : nat) | Assign (i j : nat) | Destroy (i : nat)
| InitMat (i : nat) (early : bool) (H : option nat) (gok : bool) (A : option nat) (ok : bool)
| InitArr (i : nat) (early identity : bool) (H : option nat) (gok : bool) (A : option nat) (ok : bool)
| InitFile (i : nat) (early identity : bool) (Hf : option bool) (vok vokA : bool) (Af : option bool)
| Use (i : nat)          (* hotstart with new vectors, getObjVal, ... *)
| SqMat (i : nat) (refused : bool) (H A : option nat) (ok : bool)
| SqArr (i : nat) (refused : bool) (H A : option nat) (ok : bool)
| SqFile (i : nat) (noargs refused hok aok vok : bool).

(** What the caller has to keep allocated.  Data passed to an object are lent to it; a
    call that ends well and used new data gives the older ones back.  Without
    constraints the constraint matrix is not used. *)
Definition lend2 (f : slot -> nat -> world -> world) (i : nat) (H A : option nat) (w : world) : world :=
  let w := ofold (f (i, true)) H w in if hasC w i then ofold (f (i, false)) A w else w.
Definition note (f : slot -> nat -> world -> world) (i : nat) (H A : option nat) (ok : bool) (w : world) : world := if ok then lend2 f i H A w else w.
Definition exec (o : op) (w : world) : res world :=
  match o with
  | CallerArray => let (a, w) := new_arr w in Ok (set_carr (upd (carr w) a true) w)
  | CallerMatrix a owns dense => let (p, w) := new_mat (mkM a owns dense) w in
      let w := set_cmat (upd (cmat w) p true) w in Ok (if owns then set_carr (upd (carr w) a false) w else w)
  | CallerFreeArray a => w <- free_arr a w ;; Ok (set_carr (upd (carr w) a false) w)
  | CallerFreeMatrix p => w <- del_mat p w ;; Ok (set_cmat (upd (cmat w) p false) w)
  | Create i c => create i c w
  | CopyNew i j => copy_new i j w
  | Assign i j => assign i j w
  | Destroy i => destroy i w
  | InitMat i early H gok A ok => w <- init_mat i early H gok A (lend2 lend_m i H A w) ;; Ok (note only_m i H A ok w)
  | InitArr i early identity H gok A ok => w <- init_arr i early identity H gok A (lend2 lend_a i H A w) ;; Ok (note only_a i H A ok w)
  | InitFile i early identity Hf vok vokA Af => init_file i early identity Hf vok vokA Af w
  | Use i => read_obj i w
  | SqMat i refused H A ok => w <- sq_mat i refused H A (lend2 lend_m i H A w) ;; Ok (note only_m i H A ok w)
  | SqArr i refused H A ok => w <- sq_arr i refused H A (lend2 lend_a i H A w) ;; Ok (note only_a i H A ok w)
  | SqFile i noargs refused hok aok vok => sq_file i noargs refused hok aok vok w
  end.
(** ** The duties of the caller *)
Definition not_lent_a (w : world) (a : nat) : Prop := forall i b, alive w i = true -> lent_a w (i, b) a = false.
Definition not_lent_m (w : world) (p : nat) : Prop := forall i b, alive w i = true -> lent_m w (i, b) p = false.
Definition usable_m (w : world) (p : nat) : Prop := exists m, mats w p = Some m /\ cmat w p = true /\ arrs w (mo_arr m) = true /\ (mo_owns m = false -> carr w (mo_arr m) = true).
Definition usable_a (w : world) (a : nat) : Prop := arrs w a = true /\ carr w a = true.
Definition opt {A} (P : A -> Prop) (o : option A) : Prop := match o with Some a => P a | None => True end.
(** a call that ends well has taken over its arguments *)
Definition complete (early gok ok : bool) : Prop := ok = true -> early = false /\ gok = true.
Definition allowed (w : world) (o : op) : Prop :=
  match o with
  | CallerArray => True
  | CallerMatrix a owns dense => usable_a w a /\ (owns = true -> not_lent_a w a)
  | CallerFreeArray a => usable_a w a /\ not_lent_a w a
  | CallerFreeMatrix p => cmat w p = true /\ not_lent_m w p /\ exists m, mats w p = Some m /\ (mo_owns m = true -> not_lent_a w (mo_arr m))
  | Create i _ => alive w i = false
  | CopyNew i j => alive w i = false /\ alive w j = true
  | Assign i j => alive w i = true /\ alive w j = true
  | Destroy i | Use i => alive w i = true
  | InitMat i early H gok A ok => alive w i = true /\ opt (usable_m w) H /\ opt (usable_m w) A /\ complete early gok ok /\ (ok = true -> hasC w i = true -> A <> None)
  | InitArr i early _ H gok A ok => alive w i = true /\ opt (usable_a w) H /\ opt (usable_a w) A /\ complete early gok ok /\ (ok = true -> hasC w i = true -> A <> None)
  | InitFile i _ _ _ _ _ _ => alive w i = true
  | SqMat i refused H A ok => alive w i = true /\ opt (usable_m w) H /\ opt (usable_m w) A /\ (ok = true -> refused = false /\ (hasC w i = true -> A <> None) /\ (H = None -> ptr w (i, true) = None))
  | SqArr i refused H A ok => alive w i = true /\ opt (usable_a w) H /\ opt (usable_a w) A /\ (ok = true -> refused = false /\ (hasC w i = true -> A <> None) /\ (H = None -> ptr w (i, true) = None))
  | SqFile i _ _ _ _ _ => alive w i = true
  end.
Definition nothing : world :=
  mkW (fun _ => false) (fun _ => None) 0 (fun _ => false) (fun _ => false) (fun _ => None) (fun _ => false) (fun _ => false) (fun _ => false) (fun _ _ => false) (fun _ _ => false).
