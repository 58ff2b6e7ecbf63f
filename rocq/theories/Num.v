(** Arithmetic on which the numerical code is parametric.

    qpOASES computes with [real_t] = double.  The numerical parts of the model
    take a record [Num] of operations without any laws, so that statements about
    control flow, return codes, indices and iteration counts hold for every
    arithmetic, IEEE doubles with NaN and infinities included.  Instances:
    [RNumT eps zero infty] over the real numbers (exact arithmetic, arbitrary
    tolerance constants), [RNum] with the library's constants, [QNum] over the
    rationals and [FNum] over IEEE binary64 (the specification in
    Coq.Floats.SpecFloat), the last two for computing examples. *)
From Coq Require Import QArith Qabs Reals Lra SpecFloat.
From Verif Require Export Base.
Open Scope Z_scope.

Record Num := mkNum {
  car :> Type;
  nadd : car -> car -> car;
  nsub : car -> car -> car;
  nmul : car -> car -> car;
  ndiv : car -> car -> car;
  nopp : car -> car;
  nabs : car -> car;
  nsqrt : car -> car;
  nltb : car -> car -> bool;    (* a < b *)
  nleb : car -> car -> bool;    (* a <= b *)
  neqb : car -> car -> bool;    (* a == b *)
  nlit : Z -> Z -> car;         (* decimal literal m * 10^e *)
  nEPS : car;                   (* Constants.hpp:50 *)
  nZERO : car;                  (* Constants.hpp:57 *)
  nINFTY : car                  (* Constants.hpp:61 *)
}.
Arguments nadd {_}. Arguments nsub {_}. Arguments nmul {_}. Arguments ndiv {_}.
Arguments nopp {_}. Arguments nabs {_}. Arguments nsqrt {_}.
Arguments nltb {_}. Arguments nleb {_}. Arguments neqb {_}. Arguments nlit {_}.
Arguments nEPS {_}. Arguments nZERO {_}. Arguments nINFTY {_}.

Declare Scope num_scope.
Delimit Scope num_scope with num.
Infix "+'" := nadd (at level 50, left associativity) : num_scope.
Infix "-'" := nsub (at level 50, left associativity) : num_scope.
Infix "*'" := nmul (at level 40, left associativity) : num_scope.
Infix "/'" := ndiv (at level 40, left associativity) : num_scope.
Notation "-' x" := (nopp x) (at level 35, right associativity) : num_scope.
Infix "<'" := nltb (at level 70) : num_scope.
Infix "<='" := nleb (at level 70) : num_scope.
Infix "=='" := neqb (at level 70) : num_scope.
Notation "a >' b" := (nltb b a) (at level 70, only parsing) : num_scope.
Notation "a >=' b" := (nleb b a) (at level 70, only parsing) : num_scope.
Open Scope num_scope.

Section Utils.
Context {N : Num}.

Definition n0 : N := nlit 0 0.
Definition n1 : N := nlit 1 0.
Definition nm1 : N := -' n1.

(** Utils.ipp:42-141.  [isEqual] and [isZero] have default tolerance ZERO
    (Utils.hpp:193-204). *)
Definition isEqualT (x y tol : N) : bool := nabs (x -' y) <=' tol.
Definition isZeroT (x tol : N) : bool := nabs x <=' tol.
Definition isEqual (x y : N) : bool := isEqualT x y nZERO.
Definition isZero (x : N) : bool := isZeroT x nZERO.
Definition getSign (x : N) : N := if x >=' n0 then n1 else nm1.
Definition getMax (x y : N) : N := if y <' x then x else y.
Definition getMin (x y : N) : N := if y >' x then x else y.
End Utils.

(** ** Real numbers *)

Definition Rltb (a b : R) : bool := if Rlt_dec a b then true else false.
Definition Rleb (a b : R) : bool := if Rle_dec a b then true else false.
Definition Reqb (a b : R) : bool := if Req_EM_T a b then true else false.
Definition Rlit (m e : Z) : R :=
  if (0 <=? e)%Z then IZR (m * 10 ^ e) else (IZR m / IZR (10 ^ (- e)))%R.

Definition RNumT (eps zero infty : R) : Num :=
  mkNum R Rplus Rminus Rmult Rdiv Ropp Rabs sqrt Rltb Rleb Reqb Rlit eps zero infty.
(** 2.221e-16, 1.0e-25, 1.0e20 *)
Definition RNum : Num := RNumT (Rlit 2221 (-19)) (Rlit 1 (-25)) (Rlit 1 20).

Lemma Rltb_spec a b : reflect (a < b)%R (Rltb a b).
Proof. unfold Rltb. destruct (Rlt_dec a b); now constructor. Qed.
Lemma Rleb_spec a b : reflect (a <= b)%R (Rleb a b).
Proof. unfold Rleb. destruct (Rle_dec a b); now constructor. Qed.
Lemma Reqb_spec a b : reflect (a = b)%R (Reqb a b).
Proof. unfold Reqb. destruct (Req_EM_T a b); now constructor. Qed.

Lemma Rltb_true a b : (a < b)%R -> Rltb a b = true.
Proof. intros. destruct (Rltb_spec a b); auto. Qed.
Lemma Rltb_false a b : (b <= a)%R -> Rltb a b = false.
Proof. intros. destruct (Rltb_spec a b); auto. lra. Qed.
Lemma Rleb_true a b : (a <= b)%R -> Rleb a b = true.
Proof. intros. destruct (Rleb_spec a b); auto. Qed.
Lemma Rleb_false a b : (b < a)%R -> Rleb a b = false.
Proof. intros. destruct (Rleb_spec a b); auto. lra. Qed.

Lemma Rlit_0 : Rlit 0 0 = 0%R.
Proof. reflexivity. Qed.
Lemma Rlit_1 : Rlit 1 0 = 1%R.
Proof. reflexivity. Qed.

Arguments Rlit : simpl never.
Arguments Rltb : simpl never.
Arguments Rleb : simpl never.
Arguments Reqb : simpl never.

(** Normalise operations of the instance [RNumT] to operations on R. *)
Ltac rnum_cbn := cbn [car nadd nsub nmul ndiv nopp nabs nsqrt nltb nleb neqb nlit nEPS nZERO nINFTY RNumT].
Ltac rnum := unfold nm1, n0, n1, isEqual, isZero, isEqualT, isZeroT, getMax, getMin, getSign; rnum_cbn;
  change (Rlit 0 0) with 0%R; change (Rlit 1 0) with 1%R.
(** Replace the carrier of the instance by R everywhere. *)
Ltac rcar := cbn [car RNumT] in *.
Tactic Notation "rnum" "in" hyp(H) :=
  unfold nm1, n0, n1, isEqual, isZero, isEqualT, isZeroT, getMax, getMin, getSign in H;
  cbn [car nadd nsub nmul ndiv nopp nabs nsqrt nltb nleb neqb nlit nEPS nZERO nINFTY RNumT] in H;
  change (Rlit 0 0) with 0%R in H; change (Rlit 1 0) with 1%R in H.

(** ** Rationals (exact except for the square root) *)

Definition Qsqrt_num (q : Q) : Q := Qred (Z.sqrt (Qnum q * Zpos (Qden q)) # Qden q)%Q.
Definition Qlit (m e : Z) : Q :=
  if 0 <=? e then inject_Z (m * 10 ^ e) else Qred (Qdiv (inject_Z m) (inject_Z (10 ^ (- e)))).
Definition QNum : Num :=
  mkNum Q (fun a b => Qred (Qplus a b)) (fun a b => Qred (Qminus a b)) (fun a b => Qred (Qmult a b))
    (fun a b => Qred (Qdiv a b)) Qopp Qabs Qsqrt_num
    (fun a b => match Qcompare a b with Lt => true | _ => false end)
    (fun a b => match Qcompare a b with Gt => false | _ => true end)
    (fun a b => match Qcompare a b with Eq => true | _ => false end)
    Qlit (Qlit 2221 (-19)) (Qlit 1 (-25)) (Qlit 1 20).

(** ** IEEE binary64 *)

Definition f_of_Z (z : Z) : spec_float := binary_normalize 53 1024 z 0 false.
Definition flit (m e : Z) : spec_float :=
  if 0 <=? e then f_of_Z (m * 10 ^ e)
  else match m with
       | Z0 => S754_zero false
       | Zpos p => SFdiv 53 1024 (S754_finite false p 0) (S754_finite false (Z.to_pos (10 ^ (- e))) 0)
       | Zneg p => SFdiv 53 1024 (S754_finite true p 0) (S754_finite false (Z.to_pos (10 ^ (- e))) 0)
       end.
Definition FNum : Num :=
  mkNum spec_float (SFadd 53 1024) (SFsub 53 1024) (SFmul 53 1024) (SFdiv 53 1024) SFopp SFabs
    (SFsqrt 53 1024) SFltb SFleb SFeqb flit (flit 2221 (-19)) (flit 1 (-25)) (flit 1 20).

Example flit_half : flit 5 (-1) = S754_finite false 4503599627370496 (-53).
Proof. vm_compute. reflexivity. Qed.
Example flit_eps : nltb (nEPS : FNum) (nlit 2222 (-19)) = true /\ nltb (nlit 2220 (-19)) (nEPS : FNum) = true.
Proof. vm_compute. auto. Qed.
