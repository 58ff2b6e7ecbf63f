(** C54: hotstarts rejected for invalid arguments; C52: what a successful hotstart
    with new matrices does not guarantee; an example for C52. *)
From Coq Require Import QArith.
From Verif Require Import Base Types Num Options Indexlist Loops SubjectTo Flipper Matrices LinAlg SafeLib QProblemB QPBSafe QPBSafe4 QPBSafe5 QPBSafe6 QProblem QProblem2 QProblem3 QProblem4 QProblem5 QProblem6
  QPFrame PropNull QPFrame2 PropAux PropBudget.
Local Open Scope Z_scope.

Section Rejected.
Context {N : Num}.
Notation arr := (list N).
Notation qp := (qp N).
Variable junk : Z -> arr.
Variable cpu : Z -> bool.

(** no hotstart, of either class and with whatever arguments, is carried out *)
Definition locked (s : qp) : Prop :=
  (forall fuel H g A lb ub lbA ubA k gB gC, sq_hotstart junk cpu fuel H g A lb ub lbA ubA k gB gC s = Ok (RET_HOTSTART_FAILED_AS_QP_NOT_INITIALISED, k, s)) /\
  (forall fuel H g A lb ub lbA ubA k gB gC, sq_hotstart_arr junk cpu fuel H g A lb ub lbA ubA k gB gC s = Ok (RET_HOTSTART_FAILED_AS_QP_NOT_INITIALISED, k, s)).
Lemma preparing_locked s : q_status (p_b s) = QPS_PREPARINGAUXILIARYQP -> locked s.
Proof. intros E. split; intros; [unfold sq_hotstart|unfold sq_hotstart_arr]; unfold sq_refuses; rewrite E; reflexivity. Qed.

(** C54, where it holds: no constraint matrix in the variant with arrays *)
Theorem C54_no_array fuel H g lb ub lbA ubA k gB gC (s : qp) : sq_refuses s = false -> 0 < pC s ->
  sq_hotstart_arr junk cpu fuel H g None lb ub lbA ubA k gB gC s = Ok (RET_SETUP_AUXILIARYQP_FAILED, k, s).
Proof.
  intros R C. unfold sq_hotstart_arr, sq_setupNewAuxiliaryQP_arr. rewrite R. destruct (Z.ltb_spec 0 (pC s)); [reflexivity|lia].
Qed.
(** C54, where it holds: crossed limits change nothing but the flag that marks the
    problem as infeasible *)
Theorem C54_crossed_limits fuel g lb ub lbA ubA k (s : qp) : 0 < pV s -> 0 <= pC s ->
  olen (pV s) lb -> olen (pV s) ub -> olen (pC s) lbA -> olen (pC s) ubA ->
  crossed (pV s) lb ub \/ crossed (pC s) lbA ubA ->
  p_hotstart junk cpu fuel g lb ub lbA ubA k None None s = Ok (SUCCESSFUL_RETURN, k, up_b (set_q_infeasible true) s).
Proof.
  intros HV HC Ll Lu LlA LuA X. unfold p_hotstart. destruct (Z.eqb_spec (pV s) 0); [lia|]. cbn [bind]. change (negb (SUCCESSFUL_RETURN =r? SUCCESSFUL_RETURN)) with false. cbv iota.
  unfold p_areBoundsConsistent.
  destruct (wp_inv _ _ (areBoundsConsistent_ok (pV s) (p_b s) lb ub eq_refl ltac:(lia) Ll Lu)) as (r & -> & [(-> & NC)|(-> & C)]); cbn [bind].
  2:{ reflexivity. }
  change (SUCCESSFUL_RETURN =r? RET_QP_INFEASIBLE) with false. cbv iota.
  destruct X as [X|X]; [contradiction|].
  destruct X as (ln & un & i & -> & -> & Hi & G). cbn in LlA, LuA.
  match goal with |- context [forb_up 0 (pC s) ?body tt] => assert (W : wp (forb_up 0 (pC s) body tt) (fun c => match c with Brk _ => True | Next _ => False end)) end.
  { eapply wp_forb_up with (I := fun k _ => k <= i) (J := fun _ => True); [lia|lia| |intros; lia|auto].
    intros j _ Hj IH. eapply wp_bind. apply (wp_rd n0); [lia|]. apply wp_bind, (wp_rd n0); [lia|].
    match goal with |- wp (if ?c then _ else _) _ => destruct c eqn:Gj end; cbn [wp]; [exact I|]. destruct (Z.eq_dec j i) as [->|]; [congruence|lia]. }
  apply wp_inv in W as (c & -> & K). destruct c; [contradiction|]. reflexivity.
Qed.

(** C54 refuted: the variant with matrix objects has changed the status before it
    looks at the constraint matrix, and the object is of no use any more *)
Theorem C54_no_matrix_refuted fuel H g lb ub lbA ubA k gB gC (s : qp) : sq_refuses s = false -> 0 < pC s ->
  exists s', sq_hotstart junk cpu fuel H g None lb ub lbA ubA k gB gC s = Ok (RET_SETUP_AUXILIARYQP_FAILED, k, s') /\ locked s'.
Proof.
  intros R C. exists (up_b (set_q_status QPS_PREPARINGAUXILIARYQP) s). split; [|apply preparing_locked; reflexivity].
  unfold sq_hotstart, sq_setupNewAuxiliaryQP. rewrite R. cbv zeta. change (pC (up_b (set_q_status QPS_PREPARINGAUXILIARYQP) s)) with (pC s).
  destruct (Z.ltb_spec 0 (pC s)); [reflexivity|lia].
Qed.

Lemma newA_frame M (s : qp) : pc (sq_newA junk M s) (fun s' => p_b s' = p_b s /\ (pV s <> 0 -> p_A s' = Some M)).
Proof.
  unfold sq_newA, p_setA. cbv zeta. apply pc_any. intros [l u]. cbv zeta.
  change (pV (set_p_ubA u (set_p_lbA l s))) with (pV s). destruct (Z.eqb_spec (pV s) 0) as [E|E].
  { cbn [bind]. apply pc_any. intros [l1 u1]. apply pc_any. intros [A1 A2]. cbn. split; [reflexivity|contradiction]. }
  apply pc_assoc, pc_any. intros nrm. apply pc_assoc. unfold a_activity. apply pc_assoc, pc_any. intros Ax. apply pc_assoc, pc_any. intros [Au Al]. cbn [bind].
  apply pc_assoc, pc_any. intros c. cbn [bind]. apply pc_any. intros [l1 u1]. apply pc_any. intros [A1 A2]. cbn. auto.
Qed.
(** C54 refuted: without a Hessian, although the object holds one, the constraint
    matrix is replaced all the same, and the object is of no use any more *)
Theorem C54_no_hessian_refuted fuel g M lb ub lbA ubA k gB gC (s : qp) : sq_refuses s = false -> q_H (p_b s) <> None ->
  pc (sq_hotstart junk cpu fuel None g (Some M) lb ub lbA ubA k gB gC s) (fun '(r, k', s') =>
    r = RET_SETUP_AUXILIARYQP_FAILED /\ k' = k /\ locked s' /\ (pV s <> 0 -> 0 < pC s -> p_A s' = Some M)).
Proof.
  intros R HH. unfold sq_hotstart, sq_setupNewAuxiliaryQP. rewrite R. cbv zeta. change (pC (up_b (set_q_status QPS_PREPARINGAUXILIARYQP) s)) with (pC s).
  set (s1 := up_b (set_q_status QPS_PREPARINGAUXILIARYQP) s).
  assert (Go : forall s2, p_b s2 = p_b s1 -> sq_newH None s2 = Ok (RET_NO_HESSIAN_SPECIFIED, s2)).
  { intros s2 E. unfold sq_newH. rewrite E. change (q_H (p_b s1)) with (q_H (p_b s)). destruct (q_H (p_b s)); [reflexivity|contradiction]. }
  destruct (Z.ltb_spec 0 (pC s)) as [C|C].
  - apply pc_assoc. eapply pc_bind; [apply newA_frame|]. intros s2 (EB & EA). rewrite (Go s2 EB). cbn [bind]. change (negb (RET_NO_HESSIAN_SPECIFIED =r? SUCCESSFUL_RETURN)) with true. cbn [bind pc].
    split; [reflexivity|]. split; [reflexivity|]. split; [apply preparing_locked; rewrite EB; reflexivity|]. intros V _. apply EA. exact V.
  - rewrite (Go s1 eq_refl). cbn [bind]. change (negb (RET_NO_HESSIAN_SPECIFIED =r? SUCCESSFUL_RETURN)) with true. cbn [bind pc].
    split; [reflexivity|]. split; [reflexivity|]. split; [apply preparing_locked; reflexivity|]. intros _ C'. lia.
Qed.
End Rejected.

(** ** Examples and counterexamples in exact rational arithmetic *)
Definition sqh (H : option (list Q)) (g : list Q) (A : option (list Q)) (lb ub lbA ubA : list Q) (s : qp QNum) : res (returnValue * Z * qp QNum) :=
  sq_hotstart_arr (N := QNum) ce_junk nocpu 20 H g A (Some lb) (Some ub) (Some lbA) (Some ubA) 10 None None s.
Definition sqm (H : option (symmat QNum)) (g : list Q) (A : option (amat QNum)) (lb ub lbA ubA : list Q) (s : qp QNum) : res (returnValue * Z * qp QNum) :=
  sq_hotstart (N := QNum) ce_junk nocpu 20 H g A (Some lb) (Some ub) (Some lbA) (Some ubA) 10 None None s.
Definition box_again : qp QNum -> res (returnValue * Z * qp QNum) := sqh (Some [1;0;0;1]%Q) [-3;-5]%Q (Some [1;0;0;1]%Q) [-10;-10]%Q [10;10]%Q [-10;-10]%Q [1;1]%Q.

(** a solved problem; the hotstart with a null pointer for A; and the correct
    hotstart before and after it *)
Example C54_ex : exists k1 s1 k2 s2 k3 s3 k4 s4, q_box = Ok (SUCCESSFUL_RETURN, k1, s1) /\ q_status (p_b s1) = QPS_SOLVED /\
  box_again s1 = Ok (SUCCESSFUL_RETURN, k2, s2) /\
  sqm (Some (SDense (N := QNum) (mkDense 2 2 2 [1;0;0;1]%Q))) [-3;-5]%Q None [-10;-10]%Q [10;10]%Q [-10;-10]%Q [1;1]%Q s1 = Ok (RET_SETUP_AUXILIARYQP_FAILED, k3, s3) /\
  box_again s3 = Ok (RET_HOTSTART_FAILED_AS_QP_NOT_INITIALISED, k4, s4).
Proof.
  assert (T : match q_box with Ok (SUCCESSFUL_RETURN, k1, s1) => q_status (p_b s1) = QPS_SOLVED /\
     match box_again s1 with Ok (SUCCESSFUL_RETURN, _, _) => True | _ => False end /\
     match sqm (Some (SDense (N := QNum) (mkDense 2 2 2 [1;0;0;1]%Q))) [-3;-5]%Q None [-10;-10]%Q [10;10]%Q [-10;-10]%Q [1;1]%Q s1 with
     | Ok (RET_SETUP_AUXILIARYQP_FAILED, _, s3) => match box_again s3 with Ok (RET_HOTSTART_FAILED_AS_QP_NOT_INITIALISED, _, _) => True | _ => False end | _ => False end | _ => False end) by (vm_compute; auto).
  destruct q_box as [[[r1 k1] s1]| |]; try contradiction. destruct r1; try contradiction. destruct T as (T1 & T2 & T3).
  destruct (box_again s1) as [[[r2 k2] s2]| |] eqn:E2; try contradiction. destruct r2; try contradiction.
  destruct (sqm _ _ _ _ _ _ _ s1) as [[[r3 k3] s3]| |] eqn:E3; try contradiction. destruct r3; try contradiction.
  destruct (box_again s3) as [[[r4 k4] s4]| |] eqn:E4; try contradiction. destruct r4; try contradiction.
  exists k1, s1, k2, s2, k3, s3, k4, s4. auto 8.
Qed.

(** min 1/2 x'x + g'x,  -10 <= x <= 10,  -10 <= x_0, x_1 <= 1; solved at (1,1), both
    constraints in the working set *)
Definition two (o : options QNum) : res (returnValue * Z * qp QNum) :=
  q_init 2 2 [1;0;0;1]%Q [-5;-2]%Q [1;0;0;1]%Q [-10;-10]%Q [10;10]%Q [-10;-10]%Q [1;1]%Q 10 o.
(** the new constraints are x_0 <= 1 and x_0 <= 2: the second is dropped from the
    working set and keeps its multiplier *)
Definition two_dep (g : list Q) : qp QNum -> res (returnValue * Z * qp QNum) :=
  sqh (Some [1;0;0;1]%Q) g (Some [1;0;1;0]%Q) [-10;-10]%Q [10;10]%Q [-10;-10]%Q [1;2]%Q.
Definition half_sq (g x : list Q) : Q :=
  ((1#2) * (zn 0 x 0 * zn 0 x 0 + zn 0 x 1 * zn 0 x 1) + zn 0 g 0 * zn 0 x 0 + zn 0 g 1 * zn 0 x 1)%Q.

(** The auxiliary problem is solved by the iterate (C52), but its working set need
    not carry the multipliers.  The hotstart then ends with success at a point that
    is not optimal: (1,2) is feasible and better. *)
Theorem C52_wrong_solution_refuted : exists k1 s1 k2 s2,
  two (setToMPC optDefault) = Ok (SUCCESSFUL_RETURN, k1, s1) /\ q_status (p_b s1) = QPS_SOLVED /\
  two_dep [-3#2;-2]%Q s1 = Ok (SUCCESSFUL_RETURN, k2, s2) /\ q_status (p_b s2) = QPS_SOLVED /\
  Qlt (half_sq [-3#2;-2]%Q [1;2]%Q) (half_sq [-3#2;-2]%Q (q_x (p_b s2))).
Proof.
  assert (T : match two (setToMPC optDefault) with Ok (SUCCESSFUL_RETURN, k1, s1) => q_status (p_b s1) = QPS_SOLVED /\
     match two_dep [-3#2;-2]%Q s1 with Ok (SUCCESSFUL_RETURN, _, s2) => q_status (p_b s2) = QPS_SOLVED /\ Qlt (half_sq [-3#2;-2]%Q [1;2]%Q) (half_sq [-3#2;-2]%Q (q_x (p_b s2))) | _ => False end
   | _ => False end) by (vm_compute; auto).
  destruct (two _) as [[[r1 k1] s1]| |]; try contradiction. destruct r1; try contradiction. destruct T as (T1 & T2).
  destruct (two_dep _ s1) as [[[r2 k2] s2]| |] eqn:E2; try contradiction. destruct r2; try contradiction.
  exists k1, s1, k2, s2. tauto.
Qed.
(** With default options the point is right, the multipliers are not: constraint 1
    (x_0 <= 2) is inactive at x = (1,2) and has the multiplier -1. *)
Theorem C52_wrong_multipliers_refuted : exists k1 s1 k2 s2,
  two optDefault = Ok (SUCCESSFUL_RETURN, k1, s1) /\ q_status (p_b s1) = QPS_SOLVED /\
  two_dep [-5;-2]%Q s1 = Ok (SUCCESSFUL_RETURN, k2, s2) /\ q_status (p_b s2) = QPS_SOLVED /\
  Qeq (zn 0%Q (q_x (p_b s2)) 0) 1 /\ Qlt (zn 0%Q (q_y (p_b s2)) 3) 0 /\ zn ST_UNDEFINED (st_status (p_cons s2)) 1 = ST_INACTIVE.
Proof.
  assert (T : match two optDefault with Ok (SUCCESSFUL_RETURN, k1, s1) => q_status (p_b s1) = QPS_SOLVED /\
     match two_dep [-5;-2]%Q s1 with Ok (SUCCESSFUL_RETURN, _, s2) => q_status (p_b s2) = QPS_SOLVED /\
       Qeq (zn 0%Q (q_x (p_b s2)) 0) 1 /\ Qlt (zn 0%Q (q_y (p_b s2)) 3) 0 /\ zn ST_UNDEFINED (st_status (p_cons s2)) 1 = ST_INACTIVE | _ => False end
   | _ => False end) by (vm_compute; auto 8).
  destruct (two _) as [[[r1 k1] s1]| |]; try contradiction. destruct r1; try contradiction. destruct T as (T1 & T2).
  destruct (two_dep _ s1) as [[[r2 k2] s2]| |] eqn:E2; try contradiction. destruct r2; try contradiction.
  exists k1, s1, k2, s2. tauto.
Qed.
(** A factorisation that fails twice is ignored.  With the MPC options the second
    attempt repeats the first, and the hotstart ends with success at a point with
    -10 < x_0 < 10 and x_0 inside its constraint at which the gradient H x + g has a
    non-zero component 0. *)
Theorem C52_failed_cholesky_refuted : exists k1 s1 k2 s2,
  q_init 2 1 [1;0;0;1]%Q [-5;-2]%Q [1;0]%Q [-10;-10]%Q [10;10]%Q [-20]%Q [20]%Q 10 (setToMPC optDefault) = Ok (SUCCESSFUL_RETURN, k1, s1) /\
  q_status (p_b s1) = QPS_SOLVED /\
  sqh (Some [4;4;4;1]%Q) [-2;-1]%Q (Some [1;0]%Q) [-10;-10]%Q [10;10]%Q [-20]%Q [20]%Q s1 = Ok (SUCCESSFUL_RETURN, k2, s2) /\
  q_status (p_b s2) = QPS_SOLVED /\ (let x := q_x (p_b s2) in
  Qlt (-10) (zn 0 x 0) /\ Qlt (zn 0 x 0) 10 /\ ~ Qeq (4 * zn 0 x 0 + 4 * zn 0 x 1 - 2) 0)%Q.
Proof.
  assert (T : match q_init 2 1 [1;0;0;1]%Q [-5;-2]%Q [1;0]%Q [-10;-10]%Q [10;10]%Q [-20]%Q [20]%Q 10 (setToMPC optDefault) with Ok (SUCCESSFUL_RETURN, k1, s1) => q_status (p_b s1) = QPS_SOLVED /\
     match sqh (Some [4;4;4;1]%Q) [-2;-1]%Q (Some [1;0]%Q) [-10;-10]%Q [10;10]%Q [-20]%Q [20]%Q s1 with Ok (SUCCESSFUL_RETURN, _, s2) => q_status (p_b s2) = QPS_SOLVED /\
       (let x := q_x (p_b s2) in Qlt (-10) (zn 0 x 0) /\ Qlt (zn 0 x 0) 10 /\ ~ Qeq (4 * zn 0 x 0 + 4 * zn 0 x 1 - 2) 0)%Q | _ => False end
   | _ => False end) by (vm_compute; repeat split; discriminate).
  destruct (q_init _ _ _ _ _ _ _ _ _ _ _) as [[[r1 k1] s1]| |]; try contradiction. destruct r1; try contradiction. destruct T as (T1 & T2).
  destruct (sqh _ _ _ _ _ _ _ s1) as [[[r2 k2] s2]| |] eqn:E2; try contradiction. destruct r2; try contradiction.
  exists k1, s1, k2, s2. tauto.
Qed.
Print Assumptions C54_crossed_limits.
Print Assumptions C54_no_hessian_refuted.
Print Assumptions C54_ex.
Print Assumptions C52_wrong_solution_refuted.
Print Assumptions C52_failed_cholesky_refuted.
