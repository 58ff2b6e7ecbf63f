(** Executions of QProblemB in rational arithmetic: examples for the theorems of
    PropQPB.v and counterexamples to the properties as they were written. *)
From Coq Require Import QArith Lqa.
From Verif Require Import Base Types Num Indexlist IndexlistProofs SubjectTo SubjectToProofs SubjectToProofs2 Options Flipper PropFlipper
  Utils Matrices CsLib LinAlg SafeLib MatSafe QProblemB QPBSafe QPBSafe2 QPBSafe3 QPBSafe4 QPBSafe5 QPBSafe6 PropQPB.
Local Open Scope Z_scope.

Notation Qarr := (list (car QNum)).
Definition jk (n : Z) : Qarr := repeat (7 # 3)%Q (Z.to_nat n).
Lemma jk_ok : junk_ok jk.
Proof. intros n Hn. unfold jk. rewrite zlen_repeat. lia. Qed.
Definition nocpu (_ : Z) : bool := false.
Definition state_of (m : res (returnValue * Z * qpb QNum)) : qpb QNum :=
  match m with Ok (_, _, s) => s | _ => qb_new jk 1 HST_UNKNOWN optDefault end.
Notation qexec := (exec (N:=QNum) jk nocpu).
Notation qhist := (hist (N:=QNum) jk nocpu).

(** ** the number of far bound enlargements with default options *)
Lemma extendFar_inv {N : Num} (P : N -> Prop) lbn ubn n (far v : N) : P far ->
  (forall (f u : N), P f -> u >' f = true -> P u) -> (forall (f l : N), P f -> l <' -' f = true -> P (-' l)) ->
  extendFar lbn ubn n far = Ok v -> P v.
Proof.
  intros H0 HU HL E. unfold extendFar in E. apply bind_ok in E as (f & E1 & E2).
  assert (Pf : P f).
  { destruct ubn as [u|]; [|injection E1 as <-; exact H0]. revert E1. unfold for_up. generalize (Z.to_nat (n - 0)). intros m. generalize 0%Z as lo. revert far H0. induction m as [|m IH]; intros far H0 lo E1.
    - injection E1 as <-. exact H0.
    - cbn in E1. apply bind_ok in E1 as (g & E1 & E3). apply bind_ok in E1 as (w & _ & E1). injection E1 as <-. eapply IH; [|exact E3].
      destruct (_ <' _); cbn [andb]; [|exact H0]. destruct (w >' far) eqn:G; [eapply HU; eauto|exact H0]. }
  destruct lbn as [l|]; [|injection E2 as <-; exact Pf]. clear E1 H0. revert E2. unfold for_up. generalize (Z.to_nat (n - 0)). intros m. generalize 0%Z as lo. revert f Pf. induction m as [|m IH]; intros f Pf lo E1.
  - injection E1 as <-. exact Pf.
  - cbn in E1. apply bind_ok in E1 as (g & E1 & E3). apply bind_ok in E1 as (w & _ & E1). injection E1 as <-. eapply IH; [|exact E3].
    destruct (_ >' _); cbn [andb]; [|exact Pf]. destruct (_ <' _) eqn:G; [eapply HL; eauto|exact Pf].
Qed.

Lemma Qnum_lt (a b : Q) : (nltb (n:=QNum) a b = true) -> (a < b)%Q.
Proof.
  intros H. change ((match Qcompare a b with Lt => true | _ => false end) = true) in H. apply Qlt_alt. destruct (Qcompare a b); auto; discriminate.
Qed.
Lemma Qnum_le (a b : Q) : (a <= b)%Q -> nleb (n:=QNum) a b = true.
Proof.
  intros H. change ((match Qcompare a b with Gt => false | _ => true end) = true). pose proof (proj1 (Qle_alt a b) H) as K. destruct (Qcompare a b); auto; now destruct K.
Qed.
Lemma fuel_default n : fuel_ok (N:=QNum) n optDefault 5.
Proof.
  intros _ lbn ubn far E.
  assert (B : (1000000 <= far)%Q).
  { revert E. apply (extendFar_inv (N:=QNum) (fun f : Q => (1000000 <= f)%Q)).
    - vm_compute. discriminate.
    - intros f u Hf Hu. apply Qnum_lt in Hu. eapply Qle_trans; [exact Hf|]. now apply Qlt_le_weak.
    - intros f l Hf Hl. apply Qnum_lt in Hl. change (1000000 <= Qopp l)%Q. change (l < Qopp f)%Q in Hl. lra. }
  clear E. change (o_growFarBounds optDefault) with (1000%Q : Q). cbn [grows]. right; right; right; right; left. apply Qnum_le.
  cbn [nINFTY nmul QNum]. change (Qlit 1 20) with (100000000000000000000%Q : Q).
  rewrite !Qred_correct. lra.
Qed.

(** ** One variable, H = 1, -1 <= x <= 1 *)
Definition v1 (a : Q) : option Qarr := Some [a].
Definition s0 : qpb QNum := qb_new jk 1 HST_UNKNOWN optDefault.
Definition H1 : harg QNum := HArr (N:=QNum) (Some [1%Q]).
Definition cinit (g lb ub : Q) (nWSR : Z) : call (N:=QNum) := KInit (N:=QNum) 5 H1 (v1 g) (v1 lb) (v1 ub) nWSR None None None None.
Definition chot (g lb ub : Q) (nWSR : Z) : call (N:=QNum) := KHot (N:=QNum) 5 [g] (v1 lb) (v1 ub) nWSR None.

Lemma h0 : qhist 1 [] s0.
Proof. now apply hist_new. Qed.
Lemma legal_init s g lb ub nWSR : q_opts s = optDefault -> legal 1 s (cinit g lb ub nWSR).
Proof.
  intros O. cbn. rewrite O. split; [apply fuel_default|]. repeat split; try (cbn; unfold zlen; cbn; lia). all: discriminate.
Qed.
Lemma legal_hot s g lb ub nWSR : q_opts s = optDefault -> q_status s <> QPS_NOTINITIALISED -> legal 1 s (chot g lb ub nWSR).
Proof.
  intros O Q. cbn. rewrite O. split; [apply fuel_default|]. repeat split; try (unfold zlen; cbn; lia); try discriminate. intros X; contradiction.
Qed.

(** solved in one step: the minimiser of x^2/2 - 2x on [-1,1] is 1 *)
Definition s_a := state_of (qexec (cinit (-2)%Q (-1)%Q 1%Q 10) s0).
Lemma h_a : qhist 1 [(cinit (-2)%Q (-1)%Q 1%Q 10, SUCCESSFUL_RETURN, 2)] s_a.
Proof. eapply hist_call; [exact h0|apply legal_init; reflexivity|]. vm_compute. reflexivity. Qed.
Example C31_results_ex : hasSolution s_a = true /\ isSolved s_a = true /\ q_x s_a = [1%Q] /\ hands_out jk 1 s_a.
Proof.
  destruct (C31_results jk nocpu jk_ok _ _ _ h_a) as (A & _). split; [reflexivity|]. split; [reflexivity|]. split; [vm_compute; reflexivity|]. now apply A.
Qed.
Example C32_budget_ex : q_wsc s_a = 2 /\ legal 1 s0 (cinit (-2)%Q (-1)%Q 1%Q 10).
Proof. split; [reflexivity|]. now apply legal_init. Qed.

(** no budget: nothing was solved *)
Definition s_b := state_of (qexec (cinit (-2)%Q (-1)%Q 1%Q 0) s0).
Lemma h_b : qhist 1 [(cinit (-2)%Q (-1)%Q 1%Q 0, RET_MAX_NWSR_REACHED, 0)] s_b.
Proof. eapply hist_call; [exact h0|apply legal_init; reflexivity|]. vm_compute. reflexivity. Qed.

(** C31 as written fails: after init returned RET_MAX_NWSR_REACHED the getters hand
    out the point of the auxiliary QP (here 0, the solution is 1). *)
Theorem C31_results_refuted : exists n l s k c, qhist n ((c, RET_MAX_NWSR_REACHED, k) :: l) s /\ isSolved s = false /\
  getPrimalSolution s [5%Q] = Ok (SUCCESSFUL_RETURN, [0%Q] : Qarr) /\ getDualSolution s [5%Q] = Ok (SUCCESSFUL_RETURN, [0%Q] : Qarr) /\
  getObjVal jk s = Ok (0%Q : QNum).
Proof.
  exists 1, [], s_b, 0, (cinit (-2)%Q (-1)%Q 1%Q 0). split; [exact h_b|]. vm_compute. auto.
Qed.

(** a continued run *)
Definition s_c := state_of (qexec (chot (-2)%Q (-1)%Q 1%Q 10) s_b).
Example C46_continue_ex : qhist 1 [(chot (-2)%Q (-1)%Q 1%Q 10, SUCCESSFUL_RETURN, 2); (cinit (-2)%Q (-1)%Q 1%Q 0, RET_MAX_NWSR_REACHED, 0)] s_c /\ q_x s_c = [1%Q].
Proof.
  split; [|vm_compute; reflexivity]. eapply hist_call; [exact h_b|apply legal_hot; vm_compute; [reflexivity|discriminate]|]. vm_compute. reflexivity.
Qed.

(** ** Contradictory bounds *)
Lemma crossed_ex : crossed (N:=QNum) 1 (v1 1%Q) (v1 0%Q).
Proof. exists [1%Q], [0%Q], 0. split; [reflexivity|]. split; [reflexivity|]. split; [lia|]. vm_compute. reflexivity. Qed.
Definition s_d := state_of (qexec (chot 0%Q 1%Q 0%Q 10) s_a).
Lemma h_d : qhist 1 [(chot 0%Q 1%Q 0%Q 10, SUCCESSFUL_RETURN, 10); (cinit (-2)%Q (-1)%Q 1%Q 10, SUCCESSFUL_RETURN, 2)] s_d.
Proof. eapply hist_call; [exact h_a|apply legal_hot; vm_compute; [reflexivity|discriminate]|]. vm_compute. reflexivity. Qed.

(** C38 as written fails: hotstart with 1 <= x <= 0 on a solved problem returns
    SUCCESSFUL_RETURN and the object still claims to be solved. *)
Theorem C38_contradictory_refuted : exists n l s c k fuel gn lb ub nWSR guess,
  c = KHot (N:=QNum) fuel gn lb ub nWSR guess /\ qhist n ((c, SUCCESSFUL_RETURN, k) :: l) s /\ crossed n lb ub /\
  isSolved s = true /\ getPrimalSolution s [5%Q] = Ok (SUCCESSFUL_RETURN, [1%Q] : Qarr).
Proof.
  do 3 eexists. do 8 eexists. split; [reflexivity|]. split; [exact h_d|]. split; [exact crossed_ex|]. split; vm_compute; reflexivity.
Qed.
Example C38_contradictory_ex : q_infeasible s_d = true.
Proof. reflexivity. Qed.
Example C38_contradictory_init_ex : crossed_user (N:=QNum) 1 (v1 1%Q) (v1 0%Q) /\
  (let s := state_of (qexec (cinit 0%Q 1%Q 0%Q 10) s0) in qexec (cinit 0%Q 1%Q 0%Q 10) s0 = Ok (RET_INIT_FAILED_INFEASIBILITY, 10, s)).
Proof. split; [exact crossed_ex|]. vm_compute. reflexivity. Qed.

(** C32 as written fails: that call reports nWSR = 10 although no recalculation took place. *)
Theorem C32_budget_refuted : exists n l s s' c k fuel gn lb ub nWSR guess,
  c = KHot (N:=QNum) fuel gn lb ub nWSR guess /\ qhist n l s /\ legal n s c /\ qexec c s = Ok (SUCCESSFUL_RETURN, k, s') /\ performed s s' <> k.
Proof.
  exists 1, [(cinit (-2)%Q (-1)%Q 1%Q 10, SUCCESSFUL_RETURN, 2)], s_a, s_d, (chot 0%Q 1%Q 0%Q 10), 10. do 6 eexists. split; [reflexivity|]. split; [exact h_a|].
  split; [apply legal_hot; vm_compute; [reflexivity|discriminate]|]. split; [vm_compute; reflexivity|]. vm_compute. discriminate.
Qed.

Example C60_export_ex : getWorkingSetBounds s_a [5%Q; 6%Q] = Ok ([1%Q; 6%Q] : Qarr).
Proof. vm_compute. reflexivity. Qed.
Example C62_memory_safe_ex : qhist 1 [(cinit (-2)%Q (-1)%Q 1%Q 10, SUCCESSFUL_RETURN, 2)] s_a /\ legal 1 s_a (chot 0%Q 1%Q 0%Q 10).
Proof. split; [exact h_a|]. apply legal_hot; vm_compute; [reflexivity|discriminate]. Qed.

(** ** hotstart before init: with regularisation enabled the null Hessian is dereferenced *)
Definition oReg : options QNum := set_o_enableRegularisation true optDefault.
Theorem C62_hotstart_before_init_refuted : exists n s fuel gn lb ub nWSR,
  qhist n [] s /\ fuel_ok n (q_opts s) fuel /\ n <= zlen gn /\ olen n lb /\ olen n ub /\
  qexec (KHot (N:=QNum) fuel gn lb ub nWSR None) s = UB.
Proof.
  exists 1, (qb_new jk 1 HST_UNKNOWN oReg), 5%nat, [0%Q], (v1 0%Q), (v1 1%Q), 10. split; [now apply hist_new|]. split; [exact (fuel_default 1)|].
  split; [vm_compute; discriminate|]. split; [vm_compute; discriminate|]. split; [vm_compute; discriminate|]. vm_compute. reflexivity.
Qed.
