(** C71: a wrong multiplier that no test sees.

    The ratio test of performStep (QProblem.cpp:5024-5196, QProblemB::isBlocking) looks at a multiplier
    only if it changes by at least epsDen = 1000 EPS and is at least epsNum = -1000 EPS.  A multiplier can
    therefore cross zero in steps below epsDen; once it is below epsNum nothing ever stops it again.
    Between two hotstarts that do not change the working set no drift correction takes place. *)
From Coq Require Import QArith.
From Verif Require Import Base Types Num Options SubjectTo Matrices QProblemB QPBEx PropAux QProblem QProblem3 QProblem5 PropBudget PropNull.
Open Scope Z_scope.

(** min 1/2 x^2 + g x with 0 <= x <= 10 and -1 <= x <= 5; the unconstrained minimum is -g *)
Definition lk_first := q_init 1 1 [1]%Q [0]%Q [1]%Q [0]%Q [10]%Q [-1]%Q [5]%Q 10 optDefault.
Definition lk_hot (g : Q) (s : qp QNum) := p_hotstart (N := QNum) ce_junk nocpu 20 [g] (Some [0]%Q) (Some [10]%Q) (Some [-1]%Q) (Some [5]%Q) 10 None None s.
Fixpoint lk_run (gs : list Q) (s : qp QNum) : option (qp QNum) :=
  match gs with
  | [] => Some s
  | g :: gs => match lk_hot g s with Ok (SUCCESSFUL_RETURN, _, s') => match q_status (p_b s') with QPS_SOLVED => lk_run gs s' | _ => None end | _ => None end
  end.
Definition lk_seen (gs : list Q) : option (list Q * list Q) :=
  match lk_first with Ok (SUCCESSFUL_RETURN, _, s) => match lk_run gs s with Some s' => Some (map Qred (q_x (p_b s')), map Qred (q_y (p_b s'))) | None => None end | _ => None end.

(** one gradient of -2e-13 on the way does no harm *)
Example C71_control : lk_seen [-1]%Q = Some ([1], [0; 0])%Q /\ lk_seen [-2 # 10000000000000; -1]%Q = Some ([1], [0; 0])%Q.
Proof. split; vm_compute; reflexivity. Qed.

(** calls that need no working set change and report success, one after the other *)
Definition lk_solve (g : Q) (s : qp QNum) := p_solveQP (N := QNum) ce_junk nocpu [g] (Some [0]%Q) (Some [10]%Q) (Some [-1]%Q) (Some [5]%Q) 10 0 s.
Example C71_at_once : match lk_first with
  | Ok (SUCCESSFUL_RETURN, _, s) => match lk_solve (-2 # 10000000000000) s with
     | Ok (SUCCESSFUL_RETURN, 0, s) => match lk_solve (1 # 2) s with
        | Ok (SUCCESSFUL_RETURN, 0, s) => map Qred (q_x (p_b s)) = [0]%Q /\ map Qred (q_y (p_b s)) = [1 # 2; 0]%Q
        | _ => False end
     | _ => False end
  | _ => False end.
Proof. vm_compute. split; reflexivity. Qed.

(** after gradients of -2e-13 and -4e-13 the hotstart with gradient -1 reports x = 0 as the solution,
    although x = 1 is feasible and better *)
Theorem C71_refuted : exists s s' : qp QNum, lk_first = Ok (SUCCESSFUL_RETURN, 0, s) /\
  lk_run [-2 # 10000000000000; -4 # 10000000000000; -1]%Q s = Some s' /\ q_status (p_b s') = QPS_SOLVED /\
  exists x y, q_x (p_b s') = [x] /\ q_y (p_b s') = [y; 0]%Q /\ (x == 0)%Q /\ (y == -1)%Q /\
  (let f z := (1 # 2) * z * z - z in 0 <= 1 <= 10 /\ -1 <= 1 <= 5 /\ f 1 < f x)%Q.
Proof.
  assert (E : match lk_first with
              | Ok (SUCCESSFUL_RETURN, 0, s) => match lk_run [-2 # 10000000000000; -4 # 10000000000000; -1]%Q s with
                 | Some s' => match q_x (p_b s'), q_y (p_b s') with
                     | [x], [y; z] => q_status (p_b s') = QPS_SOLVED /\ Qred x = 0%Q /\ Qred y = (-1)%Q /\ z = 0%Q
                     | _, _ => False end
                 | _ => False end
              | _ => False end) by (vm_compute; repeat split; reflexivity).
  destruct lk_first as [((r, n), s)| |] eqn:E1; try contradiction. destruct r; try contradiction. destruct n; try contradiction.
  destruct (lk_run _ s) as [s'|] eqn:E2; try contradiction.
  destruct (q_x (p_b s')) as [|x [|]] eqn:E3; try contradiction. destruct (q_y (p_b s')) as [|y [|z [|]]] eqn:E4; try contradiction.
  destruct E as (ES & Ex & Ey & ->). assert (X : (x == 0)%Q) by (rewrite <- (Qred_correct x), Ex; reflexivity). assert (Y : (y == -1)%Q) by (rewrite <- (Qred_correct y), Ey; reflexivity).
  exists s, s'. split; [reflexivity|]. split; [exact E2|]. split; [exact ES|]. exists x, y. split; [exact E3|]. split; [exact E4|]. split; [exact X|]. split; [exact Y|].
  cbv beta zeta. rewrite X. repeat split; unfold Qle, Qlt; cbn; lia.
Qed.
