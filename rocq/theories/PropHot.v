(** * Hotstart: limits that were absent at the initialisation

    QProblem::hotstart (QProblem.cpp:446-636) hands the new limits to solveQP.  At the start of every
    iteration updateActivitiesForHotstart (QProblem.cpp:1861-1925) refreshes the types of the bounds
    (QProblemB::setupSubjectToType(lb_new,ub_new), line 1870); the types of the constraints and their
    [noLower]/[noUpper] flags are those of the previous problem (the call with four arguments in solveQP,
    1540-1547, is commented out).  A problem initialised without lower limits on the constraints and
    hotstarted with such limits never sees them. *)
From Coq Require Import QArith.
From Verif Require Import Base Types Num Options SubjectTo Matrices QProblemB QPBEx PropAux QProblem QProblem3 QProblem5 PropBudget PropNull.
Open Scope Z_scope.

Definition ph_inf : Q := nINFTY (n := QNum).
(** min 1/2 x^2 with -10 <= x <= 10 and lbA <= x <= 5 *)
Definition ph_first (lbA : Q) := q_init 1 1 [1]%Q [0]%Q [1]%Q [-10]%Q [10]%Q [lbA] [5]%Q 10 optDefault.
(** the hotstart with 2 <= x <= 5 *)
Definition ph_second (s : qp QNum) := p_hotstart (N := QNum) ce_junk nocpu 20 [0]%Q (Some [-10]%Q) (Some [10]%Q) (Some [2]%Q) (Some [5]%Q) 10 None None s.
(** what the caller sees: return value, status, solution, and the limit the solution has to respect *)
Definition ph_seen (lbA : Q) : option (returnValue * QProblemStatus * list Q * list Q) :=
  match ph_first lbA with
  | Ok (SUCCESSFUL_RETURN, _, s) => match ph_second s with Ok (r, _, s') => Some (r, q_status (p_b s'), map Qred (q_x (p_b s')), map Qred (p_lbA s')) | _ => None end
  | _ => None
  end.

(** with a lower limit at the initialisation the hotstart finds x = 2 *)
Example C68_control : ph_seen (-9)%Q = Some (SUCCESSFUL_RETURN, QPS_SOLVED, [2]%Q, [2]%Q).
Proof. vm_compute. reflexivity. Qed.
(** without one it reports x = 0 as the solution of a problem that requires x >= 2 *)
Theorem C68_refuted : exists (s s' : qp QNum) k x,
  ph_first (Qopp ph_inf) = Ok (SUCCESSFUL_RETURN, 1, s) /\ ph_second s = Ok (SUCCESSFUL_RETURN, k, s') /\
  q_status (p_b s') = QPS_SOLVED /\ q_infeasible (p_b s') = false /\
  q_x (p_b s') = [x] /\ p_lbA s' = [2]%Q /\ (x < 2)%Q.
Proof.
  assert (E : match ph_first (Qopp ph_inf) with
              | Ok (SUCCESSFUL_RETURN, 1, s) => match ph_second s with
                 | Ok (SUCCESSFUL_RETURN, k, s') => match q_x (p_b s') with
                     | [x] => q_status (p_b s') = QPS_SOLVED /\ q_infeasible (p_b s') = false /\ p_lbA s' = [2]%Q /\ (x < 2)%Q
                     | _ => False end
                 | _ => False end
              | _ => False end) by (vm_compute; repeat split; reflexivity).
  destruct (ph_first (Qopp ph_inf)) as [((r, n), s)| |] eqn:E1; try contradiction.
  destruct r; try contradiction. destruct n as [|[p|p|]|p]; try contradiction.
  destruct (ph_second s) as [((r2, k), s')| |] eqn:E2; try contradiction.
  destruct r2; try contradiction. destruct (q_x (p_b s')) as [|x [|]] eqn:E3; try contradiction.
  exists s, s', k, x. tauto.
Qed.
