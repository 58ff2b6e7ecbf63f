(** A concrete QProblemB object over the reals that the examples share:
      min 1/2 x'Hx + g'x,  H = [4 1; 1 2],  g = (0,1),  -1 <= x0 <= 1,  0 <= x1 <= 1
    at its solution x = 0 with variable 0 free and variable 1 at its lower bound. *)
From Verif Require Import Base Types Num Options Indexlist IndexlistProofs Loops RSum LinSpec SafeLib SubjectTo SubjectToProofs SubjectToProofs2
  Flipper PropFlipper Matrices MatSafe LinAlg QProblemB QPBSafe QPBSafe3 QPBSafe6.
Local Open Scope Z_scope.

Definition ex_st0 : subjectTo := st_setNoUpper (st_setNoLower (st_set_type (st_new 2) [ST_BOUNDED; ST_BOUNDED]) false) false.
Definition ex_st1 : subjectTo := Eval vm_compute in match st_setup KBounds ex_st0 0 ST_INACTIVE with Ok (_, s) => s | _ => st_empty end.
Definition ex_st : subjectTo := Eval vm_compute in match st_setup KBounds ex_st1 1 ST_LOWER with Ok (_, s) => s | _ => st_empty end.

Lemma ex_st0_wf : st_wf ex_st0 [] [].
Proof.
  destruct (init_wf 2 st_empty ltac:(lia)) as (W & _ & _). destruct W. constructor; auto.
Qed.
Lemma ex_st_wf : st_wf ex_st [0] [1].
Proof.
  destruct (setup_ok KBounds ex_st0 [] [] 0 ST_INACTIVE ex_st0_wf) as (s1 & E1 & W1 & M1 & S1); try (vm_compute; congruence); [vm_compute; intuition congruence|auto|].
  assert (X1 : s1 = ex_st1). { assert (K : st_setup KBounds ex_st0 0 ST_INACTIVE = Ok (SUCCESSFUL_RETURN, ex_st1)) by (vm_compute; reflexivity). congruence. }
  subst s1. cbn [is_active app] in W1.
  destruct (setup_ok KBounds ex_st1 [0] [] 1 ST_LOWER W1) as (s2 & E2 & W2 & M2 & S2); try (vm_compute; congruence); [vm_compute; intuition congruence|auto|].
  assert (X2 : s2 = ex_st). { assert (K : st_setup KBounds ex_st1 1 ST_LOWER = Ok (SUCCESSFUL_RETURN, ex_st)) by (vm_compute; reflexivity). congruence. }
  subst s2. exact W2.
Qed.

Section Ex.
Context {N : Num}.
Definition ex_H : denseM N := mkDense 2 2 2 [nlit 4 0; n1; n1; nlit 2 0].
Variable o : options N.
Definition ex_qp : qpb N :=
  mkQ (Some (SDense ex_H)) false [n0; n1] [nm1; n0] [n1; n1] ex_st [nlit 2 0; n0; n0; n0] true [n0; n0] [n0; n1]
    n0 QPS_SOLVED false false HST_POSDEF n0 0 [n0; n0] (o_initialRamping o) (o_finalRamping o) 0 o (fl_new 2 0) 0 0.

Lemma ex_msafe : msafe 2 (SDense ex_H).
Proof. split; [lia|]. repeat split; cbn; unfold zlen; cbn; lia. Qed.
Lemma ex_wf : qwf 2 ex_qp [0] [1].
Proof.
  constructor; try reflexivity; [exact ex_st_wf| |apply init_holds|].
  - intros i Hi. assert (i = 0 \/ i = 1) as [-> | ->] by lia; vm_compute; auto.
  - intros M E. injection E as <-. apply ex_msafe.
Qed.
End Ex.
