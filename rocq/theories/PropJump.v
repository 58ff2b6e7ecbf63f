(** C70: feasible problems that are declared infeasible.

    When the gradient of the entering bound or constraint depends on the active ones, the ratio test of
    ensureLI looks for one that can leave (QProblem.cpp:3186-3216 and 3663-3693).  It starts with
    y_min = options.maxDualJump (lines 3156 and 3634, 1.0e8 by default) and overlooks coefficients below
    epsDen; if it finds nobody, the problem is "infeasible" (RET_ENSURELI_FAILED_NOINDEX).  So a
    multiplier of 1.0e8 or a coefficient below 1000 EPS is enough for the verdict. *)
From Coq Require Import QArith.
From Verif Require Import Base Types Num Options SubjectTo Matrices QProblemB QPBEx PropAux QProblem QProblem3 QProblem5 PropBudget PropNull.
Open Scope Z_scope.

(** min 1/2 x^2 + g x with 0 <= x <= ub and -1 <= a x <= 5, then with 1 <= a x <= 5 *)
Definition pj_first (g a ub : Q) := q_init 1 1 [1]%Q [g] [a] [0]%Q [ub] [-1]%Q [5]%Q 10 optDefault.
Definition pj_second (g ub : Q) (s : qp QNum) := p_hotstart (N := QNum) ce_junk nocpu 20 [g] (Some [0]%Q) (Some [ub]) (Some [1]%Q) (Some [5]%Q) 10 None None s.
Definition pj_seen (g a ub : Q) :=
  match pj_first g a ub with
  | Ok (SUCCESSFUL_RETURN, _, s) => match pj_second g ub s with Ok (r, _, s') => Some (r, q_status (p_b s'), q_infeasible (p_b s'), map Qred (q_x (p_b s'))) | _ => None end
  | _ => None
  end.
(** during the homotopy the constraint enters at its lower limit *)
Definition pj_enter (g a ub : Q) :=
  match pj_first g a ub with
  | Ok (SUCCESSFUL_RETURN, _, s) => match p_changeActiveSet (N := QNum) ce_junk (mkBlock (N := QNum) (0%Q) 0 ST_LOWER false) (up_b (N := QNum) (set_q_status (N := QNum) QPS_PERFORMINGHOMOTOPY) s) with
      Ok (r, s') => Some (st_status (p_bounds s), st_status (p_cons s), map Qred (q_y (p_b s)), (r, st_status (p_bounds s'), st_status (p_cons s'), map Qred (q_y (p_b s')))) | _ => None end
  | _ => None
  end.

(** a swap: the bound leaves, its multiplier goes to the constraint *)
Example C70_swap : pj_enter 90000000 2 10 = Some ([ST_LOWER], [ST_INACTIVE], [90000000; 0]%Q, (SUCCESSFUL_RETURN, [ST_INACTIVE], [ST_LOWER], [0; 45000000]%Q)).
Proof. vm_compute. reflexivity. Qed.
(** nobody leaves *)
Example C70_stuck : pj_enter 100000000 1 10 = Some ([ST_LOWER], [ST_INACTIVE], [100000000; 0]%Q, (RET_ADDCONSTRAINT_FAILED_INFEASIBILITY, [ST_LOWER], [ST_INACTIVE], [100000000; 0]%Q)).
Proof. vm_compute. reflexivity. Qed.
(** with a gradient of 9e7, or a coefficient of 1e-12, the hotstart finds the solution *)
Example C70_control : pj_seen 90000000 1 10 = Some (SUCCESSFUL_RETURN, QPS_SOLVED, false, [1]%Q) /\
  pj_seen 0 (1 # 1000000000000) 20000000000000 = Some (SUCCESSFUL_RETURN, QPS_SOLVED, false, [1000000000000]%Q).
Proof. split; vm_compute; reflexivity. Qed.

(** with a gradient of 1e8 it declares the problem infeasible, although x = 1 is feasible; the same for
    a gradient of 0, a coefficient of 1e-13 and x = 1e13 *)
Theorem C70_refuted : forall g a ub z, (g = 100000000 /\ a = 1 /\ ub = 10 /\ z = 1 \/ g = 0 /\ a = 1 # 10000000000000 /\ ub = 20000000000000 /\ z = 10000000000000)%Q ->
  exists (s s' : qp QNum) k0 k, pj_first g a ub = Ok (SUCCESSFUL_RETURN, k0, s) /\ pj_second g ub s = Ok (RET_HOTSTART_STOPPED_INFEASIBILITY, k, s') /\ q_infeasible (p_b s') = true /\
  (0 <= z <= ub)%Q /\ (1 <= a * z <= 5)%Q.
Proof.
  intros g a ub z H.
  assert (E : match pj_first g a ub with
              | Ok (SUCCESSFUL_RETURN, _, s) => match pj_second g ub s with
                 | Ok (RET_HOTSTART_STOPPED_INFEASIBILITY, _, s') => q_infeasible (p_b s') = true
                 | _ => False end
              | _ => False end) by (destruct H as [(-> & -> & -> & _)|(-> & -> & -> & _)]; vm_compute; reflexivity).
  destruct (pj_first g a ub) as [((r, n), s)| |] eqn:E1; try contradiction. destruct r; try contradiction.
  destruct (pj_second g ub s) as [((r2, k), s')| |] eqn:E2; try contradiction. destruct r2; try contradiction.
  exists s, s', n, k. split; [reflexivity|]. split; [exact E2|]. split; [exact E|].
  destruct H as [(-> & -> & -> & ->)|(-> & -> & -> & ->)]; unfold Qle; cbn; lia.
Qed.
