(** C52: replacing the matrices of a solved problem keeps the iterate optimal. *)
From Verif Require Kkt.
From Verif Require Import Base Types Num Options Indexlist IndexlistProofs Loops RSum LinSpec SafeLib SubjectTo SubjectToProofs SubjectToProofs2
  Flipper PropFlipper Matrices MatLib MatSafe CsLib PropDense PropSparse PropSparse2 LinAlg PropLinAlg QProblemB QPBSafe QPBSafe2 QPBX1 QPBX2 QPBX5 QPBX11 PropHess
  QProblem QProblem2 QProblem3 QProblem4 QProblem5 QPFrame PropNull QProblem6 QPFrame2.
Local Open Scope R_scope.

Section SQ.
Variables eps zero infty : R.
Hypothesis eps_nn : 0 <= eps.
Hypothesis zero_b : 0 <= zero < 1.
Notation N := (RNumT eps zero infty).
Notation arr := (list R).
Variable junk : Z -> arr.

(** ** Specification *)

(** the problem an object holds, for given matrices *)
Definition storedqp (n m : Z) (Hm Am : Z -> Z -> R) (s : qp N) : Kkt.qp :=
  Kkt.mkQp n m Hm (zn 0 (q_g (p_b s))) Am
    (fun i => Some (zn 0 (q_lb (p_b s)) i)) (fun i => Some (zn 0 (q_ub (p_b s)) i))
    (fun i => Some (zn 0 (p_lbA s) i)) (fun i => Some (zn 0 (p_ubA s) i)).
(** its iterate satisfies the optimality conditions of this problem *)
Definition pair_optimal (n m : Z) (Hm Am : Z -> Z -> R) (s : qp N) : Prop :=
  Kkt.kkt (storedqp n m Hm Am s) (zn 0 (q_x (p_b s))) (zn 0 (q_y (p_b s))) (fun j => zn 0 (q_y (p_b s)) (n + j)).
(** the distances of the constraints from their limits *)
Definition slacks (n m : Z) (Am : Z -> Z -> R) (s : qp N) : Prop :=
  forall i, (0 <= i < m)%Z ->
    zn 0 (p_Ax_l s) i = rsum 0 n (fun j => Am i j * zn 0 (q_x (p_b s)) j) - zn 0 (p_lbA s) i /\
    zn 0 (p_Ax_u s) i = zn 0 (p_ubA s) i - rsum 0 n (fun j => Am i j * zn 0 (q_x (p_b s)) j).
(** sizes of the arrays *)
Record sized (n m : Z) (s : qp N) : Prop := {
  sz_n : (0 <= n)%Z; sz_m : (0 <= m)%Z; sz_V : pV s = n; sz_C : pC s = m;
  sz_x : zlen (q_x (p_b s)) = n; sz_y : zlen (q_y (p_b s)) = (n + m)%Z;
  sz_lb : zlen (q_lb (p_b s)) = n; sz_ub : zlen (q_ub (p_b s)) = n; sz_g : zlen (q_g (p_b s)) = n;
  sz_lbA : zlen (p_lbA s) = m; sz_ubA : zlen (p_ubA s) = m;
  sz_Ax : zlen (p_Ax s) = m; sz_Axl : zlen (p_Ax_l s) = m; sz_Axu : zlen (p_Ax_u s) = m
}.
(** constraint matrices, in the three storage formats *)
Definition astored (m n : Z) (M : amat N) (Am : Z -> Z -> R) : Prop :=
  match M with
  | ADense A => wf_dense A /\ d_nr A = m /\ d_nc A = n /\ d_ld A = n /\ Am = dmat A
  | ASparse A => wf_sparse A /\ s_nr A = m /\ s_nc A = n /\ Am = smat A
  | ASprow A => wf_sprow A /\ r_nr A = m /\ r_nc A = n /\ Am = rmat A
  end.
(** every diagonal entry is stored *)
Definition diagonal_stored (n : Z) (M : symmat N) : Prop :=
  match M with SDense _ => True | SSparse A => forall i, (0 <= i < n)%Z -> stored (s_jc A) (s_ir A) i i end.
(** [Hu] is [E], or [E] with [d] added to its diagonal, up to [eps] *)
Definition close_to (n : Z) (E Hu : Z -> Z -> R) (d : R) : Prop :=
  (forall i j, (0 <= i < n)%Z -> (0 <= j < n)%Z -> Rabs (Hu i j - E i j) <= eps) \/
  (forall i j, (0 <= i < n)%Z -> (0 <= j < n)%Z -> Rabs (Hu i j - (E i j + d * delta i j)) <= eps).

(** ** Products with stored constraint matrices *)
Definition products (m n : Z) (M : amat N) (Am : Z -> Z -> R) : Prop :=
  (forall (x y : arr), (n <= zlen x)%Z -> (m <= zlen y)%Z ->
    exists y', a_times (N := N) M 1 n1 x n n0 y m = Ok y' /\ zlen y' = zlen y /\
      forall i, (0 <= i < m)%Z -> zn 0 y' i = rsum 0 n (fun j => Am i j * zn 0 x j)) /\
  (forall (x y : arr), (m <= zlen x)%Z -> (n <= zlen y)%Z ->
    exists y', a_transTimes (N := N) M 1 n1 x m n1 y n = Ok y' /\ zlen y' = zlen y /\
      forall j, (0 <= j < n)%Z -> zn 0 y' j = zn 0 y j + rsum 0 m (fun i => Am i j * zn 0 x i)).

Lemma astored_products m n M Am : (0 <= m)%Z -> (0 <= n)%Z -> astored m n M Am -> products m n M Am.
Proof.
  intros Hm Hn. assert (Hz' : 0 <= zero) by lra. assert (R0 : regular zero 0) by (apply unit_regular; auto). assert (R1 : regular zero 1) by (apply unit_regular; auto).
  destruct M as [A|A|A]; cbn [astored].
  - intros (WF & Hr & Hc & Hl & ->). split; intros x y Lx Ly.
    + destruct (C18_times eps zero infty Hz' A 1 1 x n 0 y m WF) as (y' & E & U); rcar; try (first [congruence | lia | assumption | apply strided1 | apply fits1; lia]).
      exists y'. split; [exact E|]. apply updated1 in U as (L & V & _). split; [exact L|]. intros i Hi. rewrite V by lia. rewrite Rmult_0_l, Rplus_0_l, Rmult_1_l.
      unfold mv. rewrite Hc. apply rsum_ext. intros j Hj. unfold vec. now rewrite Z.mul_0_l, Z.add_0_r.
    + destruct (C18_transTimes eps zero infty Hz' A 1 1 x m 1 y n WF) as (y' & E & U); rcar; try (first [congruence | lia | assumption | apply strided1 | apply fits1; lia]).
      exists y'. split; [exact E|]. apply updated1 in U as (L & V & _). split; [exact L|]. intros i Hi. rewrite V by lia. rewrite !Rmult_1_l. f_equal.
      unfold mv. rewrite Hr. apply rsum_ext. intros j Hj. unfold vec. now rewrite Z.mul_0_l, Z.add_0_r.
  - intros (WF & Hr & Hc & ->). split; intros x y Lx Ly.
    + destruct (C22_sparse_times eps zero infty Hz' A WF 1%Z 1 x n 0 y m) as (y' & E & U); rcar; try (first [congruence | lia | assumption | apply strided1 | apply fits1; lia]).
      exists y'. split; [exact E|]. apply updated1 in U as (L & V & _). split; [exact L|]. intros i Hi. rewrite V by lia. rewrite Rmult_0_l, Rplus_0_l, Rmult_1_l.
      unfold mv. rewrite Hc. apply rsum_ext. intros j Hj. unfold vec. now rewrite Z.mul_0_l, Z.add_0_r.
    + destruct (C22_sparse_transTimes eps zero infty Hz' A WF 1%Z 1 x m 1 y n) as (y' & E & U); rcar; try (first [congruence | lia | assumption | apply strided1 | apply fits1; lia]).
      exists y'. split; [exact E|]. apply updated1 in U as (L & V & _). split; [exact L|]. intros i Hi. rewrite V by lia. rewrite !Rmult_1_l. f_equal.
      unfold mv. rewrite Hr. apply rsum_ext. intros j Hj. unfold vec. now rewrite Z.mul_0_l, Z.add_0_r.
  - intros (WF & Hr & Hc & ->). split; intros x y Lx Ly.
    + destruct (C22_sprow_times eps zero infty Hz' A WF 1%Z 1 x n 0 y m) as (y' & E & U); rcar; try (first [congruence | lia | assumption | apply strided1 | apply fits1; lia]).
      exists y'. split; [exact E|]. apply updated1 in U as (L & V & _). split; [exact L|]. intros i Hi. rewrite V by lia. rewrite Rmult_0_l, Rplus_0_l, Rmult_1_l.
      unfold mv. rewrite Hc. apply rsum_ext. intros j Hj. unfold vec. now rewrite Z.mul_0_l, Z.add_0_r.
    + destruct (C22_sprow_transTimes eps zero infty Hz' A WF 1%Z 1 x m 1 y n) as (y' & E & U); rcar; try (first [congruence | lia | assumption | apply strided1 | apply fits1; lia]).
      exists y'. split; [exact E|]. apply updated1 in U as (L & V & _). split; [exact L|]. intros i Hi. rewrite V by lia. rewrite !Rmult_1_l. f_equal.
      unfold mv. rewrite Hr. apply rsum_ext. intros j Hj. unfold vec. now rewrite Z.mul_0_l, Z.add_0_r.
Qed.

(** ** Loops over two arrays *)
Lemma pw2 m (body : Z -> arr * arr -> res (arr * arr)) (a b : arr) (Q : Z -> R -> R -> R -> R -> Prop) : (0 <= m)%Z -> zlen a = m -> zlen b = m ->
  (forall i (a1 b1 : arr), (0 <= i < m)%Z -> zlen a1 = m -> zlen b1 = m ->
     exists a2 b2, body i (a1, b1) = Ok (a2, b2) /\ zlen a2 = m /\ zlen b2 = m /\ same_off i a1 a2 /\ same_off i b1 b2 /\ Q i (zn 0 a1 i) (zn 0 b1 i) (zn 0 a2 i) (zn 0 b2 i)) ->
  exists a' b', for_up 0 m body (a, b) = Ok (a', b') /\ zlen a' = m /\ zlen b' = m /\
    forall i, (0 <= i < m)%Z -> Q i (zn 0 a i) (zn 0 b i) (zn 0 a' i) (zn 0 b' i).
Proof.
  intros Hm La Lb Body.
  assert (W : wp (for_up 0 m body (a, b)) (fun '(a', b') => zlen a' = m /\ zlen b' = m /\
    forall i, (0 <= i < m)%Z -> Q i (zn 0 a i) (zn 0 b i) (zn 0 a' i) (zn 0 b' i))).
  { apply wp_for_up with (I := fun k '(a', b') => zlen a' = m /\ zlen b' = m /\ (forall i, (0 <= i < k)%Z -> Q i (zn 0 a i) (zn 0 b i) (zn 0 a' i) (zn 0 b' i)) /\
      forall i, (k <= i)%Z -> zn 0 a' i = zn 0 a i /\ zn 0 b' i = zn 0 b i).
    - lia.
    - repeat split; auto; intros; lia.
    - intros k [a1 b1] Hk (L1 & L2 & P & U). destruct (Body k a1 b1 ltac:(lia) L1 L2) as (a2 & b2 & E & L3 & L4 & S1 & S2 & HQ). rewrite E. apply wp_ok.
      split; [exact L3|]. split; [exact L4|]. split.
      + intros i Hi. destruct (Z.eq_dec i k) as [->|NE]; [destruct (U k ltac:(lia)) as (<- & <-); exact HQ|].
        rewrite S1, S2 by lia. apply P; lia.
      + intros i Hi. rewrite S1, S2 by lia. apply U; lia.
    - intros [a1 b1] (L1 & L2 & P & _). auto. }
  apply wp_inv in W as ([a' b'] & E & K). exists a', b'. tauto.
Qed.
Ltac rx := rewrite (rd_ok 0) by (rcar; rewrite ?zlen_zupd; lia); cbn [bind].
Ltac wx := rewrite wr_ok by (rcar; rewrite ?zlen_zupd; lia); cbn [bind].
Ltac pw2d := eexists _, _; split; [reflexivity|]; rewrite ?zlen_zupd; split; [assumption|]; split; [assumption|];
  split; [apply same_off_upd; lia|]; split; [apply same_off_upd; lia|]; rewrite ?zn_zupd_eq by lia.
Lemma pc_pw2 m (body : Z -> arr * arr -> res (arr * arr)) (a b : arr) (Q : Z -> R -> R -> R -> R -> Prop) : (0 <= m)%Z -> zlen a = m -> zlen b = m ->
  (forall i (a1 b1 : arr), (0 <= i < m)%Z -> zlen a1 = m -> zlen b1 = m ->
     exists a2 b2, body i (a1, b1) = Ok (a2, b2) /\ zlen a2 = m /\ zlen b2 = m /\ same_off i a1 a2 /\ same_off i b1 b2 /\ Q i (zn 0 a1 i) (zn 0 b1 i) (zn 0 a2 i) (zn 0 b2 i)) ->
  pc (for_up 0 m body (a, b)) (fun '(a', b') => zlen a' = m /\ zlen b' = m /\
    forall i, (0 <= i < m)%Z -> Q i (zn 0 a i) (zn 0 b i) (zn 0 a' i) (zn 0 b' i)).
Proof. intros A B C D. destruct (pw2 m body a b Q A B C D) as (a' & b' & -> & K). exact K. Qed.

Definition Axv (n : Z) (Am : Z -> Z -> R) (s : qp N) (i : Z) : R := rsum 0 n (fun j => Am i j * zn 0 (q_x (p_b s)) j).

Lemma setA n m M Am (s : qp N) : (0 < n)%Z -> sized n m s -> products m n M Am ->
  pc (p_setA (N := N) junk (AMat (Some M)) s) (fun '(_, s') => exists (Ax Al Au : arr) c,
    s' = set_p_cons (N := N) c (set_p_Ax_l (N := N) Al (set_p_Ax_u (N := N) Au (set_p_Ax (N := N) Ax (set_p_freeA (N := N) false (set_p_A (N := N) (Some M) s))))) /\
    st_n c = st_n (p_cons s) /\ zlen Ax = m /\ zlen Al = m /\ zlen Au = m /\ forall i, (0 <= i < m)%Z -> zn 0 Ax i = Axv n Am s i).
Proof.
  intros Hn Z0 (PT & _). destruct Z0. unfold p_setA. rewrite sz_V0. destruct (Z.eqb_spec n 0); [lia|]. cbv zeta.
  apply pc_any. intros nrm. apply pc_bind with (P := fun s1 => exists Ax Al Au : arr,
    s1 = set_p_Ax_l (N := N) Al (set_p_Ax_u (N := N) Au (set_p_Ax (N := N) Ax (set_p_freeA (N := N) false (set_p_A (N := N) (Some M) s)))) /\
    zlen Ax = m /\ zlen Al = m /\ zlen Au = m /\ forall i, (0 <= i < m)%Z -> zn 0 Ax i = Axv n Am s i).
  - unfold a_activity. set (s1 := set_p_freeA (N := N) false (set_p_A (N := N) (Some M) s)).
    replace (pV s1) with n by (symmetry; exact sz_V0). replace (pC s1) with m by (symmetry; exact sz_C0).
    destruct (PT (q_x (p_b s)) (p_Ax s)) as (Ax & E & L & V); [rcar; lia|rcar; lia|]. 
    change (q_x (p_b s1)) with (q_x (p_b s)). change (p_Ax s1) with (p_Ax s). rcar. rewrite E. cbn [bind].
    eapply pc_bind; [apply (pc_pw2 m _ (p_Ax_u s) (p_Ax_l s) (fun _ _ _ _ _ => True))|]; auto.
    + intros i a b Hi La Lb. change (p_ubA s1) with (p_ubA s). change (p_lbA s1) with (p_lbA s). rx. rx. rx. wx. wx. pw2d. auto.
    + intros [Au Al] (L1 & L2 & _). cbn [pc]. exists Ax, Al, Au. repeat split; auto; rcar; congruence.
  - intros s1 (Ax & Al & Au & -> & L1 & L2 & L3 & V).
    eapply pc_bind; [apply (pc_for_up (fun c => st_n c = st_n (p_cons s)))|].
    + reflexivity.
    + intros i c Hc. apply pc_any. intros v. destruct (isZero v); [|exact Hc]. eapply pc_bind; [apply n_setType|].
      intros [r c'] K. cbn [pc]. unfold samen in K. cbn in K. congruence.
    + intros c Hc. cbn [pc]. exists Ax, Al, Au, c. split; [reflexivity|]. split; [exact Hc|]. auto.
Qed.

Lemma newA n m M Am (s : qp N) : (0 < n)%Z -> sized n m s -> products m n M Am ->
  pc (sq_newA (N := N) junk M s) (fun s' => p_b s' = p_b s /\ p_A s' = Some M /\ sized n m s' /\
    forall i, (0 <= i < m)%Z -> zn 0 (p_Ax s') i = Axv n Am s i /\
      zn 0 (p_lbA s') i = Axv n Am s i - zn 0 (p_Ax_l s) i /\ zn 0 (p_ubA s') i = Axv n Am s i + zn 0 (p_Ax_u s) i /\
      zn 0 (p_Ax_l s') i = zn 0 (p_Ax_l s) i /\ zn 0 (p_Ax_u s') i = zn 0 (p_Ax_u s) i).
Proof.
  intros Hn Z0 PR. pose proof Z0 as Z1. destruct Z0. unfold sq_newA. cbv zeta. rewrite sz_C0.
  eapply pc_bind; [apply (pc_pw2 m _ (p_lbA s) (p_ubA s) (fun i _ _ l u => l = - zn 0 (p_Ax_l s) i /\ u = zn 0 (p_Ax_u s) i))|]; auto.
  { intros i a b Hi La Lb. rx. wx. rx. wx. pw2d. auto. }
  intros [l1 u1] (Ll1 & Lu1 & V1).
  eapply pc_bind; [apply (setA n m M Am _ Hn); [|exact PR]|].
  { constructor; auto. }
  intros [r s1] (Ax & Al & Au & c & -> & Sc & LA & Ll & Lu & V). cbn [p_Ax p_lbA p_ubA p_Ax_l p_Ax_u set_p_cons set_p_Ax_l set_p_Ax_u set_p_Ax set_p_freeA set_p_A set_p_ubA set_p_lbA].
  eapply pc_bind; [apply (pc_pw2 m _ l1 u1 (fun i l u l' u' => l' = l + zn 0 Ax i /\ u' = u + zn 0 Ax i))|]; auto.
  { intros i a b Hi La Lb. rx. rx. wx. rx. wx. pw2d. auto. }
  intros [l2 u2] (Ll2 & Lu2 & V2).
  eapply pc_bind; [apply (pc_pw2 m _ Au Al (fun i _ _ u l => u = zn 0 u2 i - zn 0 Ax i /\ l = zn 0 Ax i - zn 0 l2 i))|]; auto.
  { intros i a b Hi La Lb. rx. rx. wx. rx. wx. pw2d. auto. }
  intros [Au2 Al2] (Lu3 & Ll3 & V3). cbn [pc set_limits].
  split; [reflexivity|]. split; [reflexivity|]. split.
  - constructor; auto. unfold pC in *. cbn. exact (eq_trans Sc sz_C0).
  - intros i Hi. cbn. specialize (V i Hi). specialize (V1 i Hi). specialize (V2 i Hi). specialize (V3 i Hi). change (Axv n Am (set_p_ubA (N := N) u1 (set_p_lbA (N := N) l1 s)) i) with (Axv n Am s i) in V.
    destruct V1 as (A1 & A2), V2 as (B1 & B2), V3 as (C1 & C2). rcar. rewrite V in *. rewrite C1, C2, B1, B2, A1, A2. repeat split; lra.
Qed.

(** ** The new Hessian *)
Definition hfr (b b' : qpb N) : Prop :=
  q_x b' = q_x b /\ q_y b' = q_y b /\ q_lb b' = q_lb b /\ q_ub b' = q_ub b /\ q_g b' = q_g b /\ q_bounds b' = q_bounds b /\ q_status b' = q_status b.

Lemma addToDiag_stored n (M : symmat N) (a : R) : (0 <= n)%Z -> stored_exactly eps zero infty n M -> diagonal_stored n M ->
  exists M', m_addToDiag (N := N) M a = Ok (SUCCESSFUL_RETURN, M') /\ stored_exactly eps zero infty n M' /\
    forall i j, (0 <= i < n)%Z -> (0 <= j < n)%Z -> entries eps zero infty M' i j = entries eps zero infty M i j + a * delta i j.
Proof.
  intros Hn. destruct M as [A|A]; cbn [stored_exactly diagonal_stored entries m_addToDiag].
  - intros (WF & Hr & Hc & Hl) _. destruct (C25_dense eps zero infty A a WF) as (v & E & L & V & _). rcar. rewrite E. cbn [bind].
    eexists. split; [reflexivity|]. split; [cbn; destruct WF as (W1 & W2 & W3); split; [|auto]; split; [exact W1|]; split; [exact W2|]; cbn [d_nr d_nc d_ld d_val]; rewrite L; exact W3|].
    intros i j Hi Hj. cbn [entries]. rewrite V by lia. unfold delta. destruct (i =? j)%Z; lra.
  - intros (Z0 & WF & Hr & Hc & jd & J & D) St. assert (D' : diag_info (s_nc A) (s_jc A) (s_ir A) jd) by (rewrite Hc; exact D).
    destruct (C25_sparse eps zero infty A jd a WF J D') as (v & E & WF' & V); [intros i Hi _; apply St; rewrite <- Hr; exact Hi|intros B; rewrite Z0 in B; destruct (Req_dec a 0) as [|NZ]; auto; apply Rabs_pos_lt in NZ; lra|].
    cbv zeta in *. rcar. rewrite E. cbn [bind]. eexists. split; [reflexivity|]. split; [cbn; split; [exact Z0|]; split; [exact WF'|]; split; [exact Hr|]; split; [exact Hc|]; exists jd; auto|].
    intros i j Hi Hj. cbn [entries]. rewrite V by lia. unfold delta. destruct (i =? j)%Z; lra.
Qed.

Lemma srep n M : stored_exactly eps zero infty n M -> represents eps zero infty n M (entries eps zero infty M).
Proof. destruct M as [A|A]; cbn; [tauto|]. intros (_ & B & C & D & E). auto. Qed.
Lemma smat_ok n M : (0 <= n)%Z -> stored_exactly eps zero infty n M -> mat_ok eps zero infty n M (entries eps zero infty M).
Proof.
  intros Hn. destruct M as [A|A]; cbn [stored_exactly entries].
  - intros (A1 & A2 & A3 & A4). now apply dense_mat_ok.
  - intros (A0 & A1 & A2 & A3 & jd & A4 & A5). now apply (sparse_mat_ok eps zero infty n A jd).
Qed.
Lemma newH n M (s : qp N) : (0 <= n)%Z -> pV s = n -> stored_exactly eps zero infty n M -> diagonal_stored n M ->
  pc (sq_newH (N := N) (Some M) s) (fun '(r, s') => r = SUCCESSFUL_RETURN -> exists b' Hu, s' = set_p_b (N := N) b' s /\ hfr (p_b s) b' /\
    hess eps zero infty n b' Hu /\ close_to n (entries eps zero infty M) Hu (q_regVal b')).
Proof.
  intros Hn EV SM DM. unfold sq_newH.
  set (s0 := set_q_htype (N := N) HST_UNKNOWN (qb_setH (HMat (Some M)) (p_b s))).
  destruct (hessian_type eps zero infty n s0 M (entries eps zero infty M) eps_nn Hn EV eq_refl (srep n M SM)) as (r & b & E & (o & Fb) & _ & _ & _ & DT).
  rewrite E. cbn [bind]. specialize (DT eq_refl).
  assert (F0 : forall h o rv H, hfr (p_b s) (set_q_regVal (N := N) rv (set_q_H (N := N) H (set_q_htype (N := N) h (set_q_opts (N := N) o s0))))) by (intros; repeat split).
  assert (FB : hfr (p_b s) b) by (rewrite Fb; repeat split).
  assert (HM : q_H b = Some M) by (rewrite Fb; reflexivity).
  destruct (negb (r =r? SUCCESSFUL_RETURN)) eqn:Er; [cbn [pc]; discriminate|].
  assert (Zero : forall b, usingReg (set_q_regVal (N := N) n0 b) = false).
  { intros b0. unfold usingReg. cbn [q_regVal set_q_regVal]. rnum. destruct (Rltb_spec zero 0); [lra|reflexivity]. }
  assert (MO := smat_ok n M Hn SM).
  (* the type fits the Hessian without regularisation *)
  assert (Plain : forall b0, q_htype b0 = q_htype b -> q_H b0 = Some M -> (q_htype b = HST_ZERO -> usingReg b0 = false) ->
     exists Hu, hess eps zero infty n b0 Hu /\ close_to n (entries eps zero infty M) Hu (q_regVal b0)).
  { intros b0 T0 H0 U0. unfold hess. rewrite T0. destruct (q_htype b); try contradiction.
    - exists (fun _ _ => 0). split; [intros; now rewrite U0|]. left. intros i j Hi Hj. rewrite Rminus_0_l, Rabs_Ropp. now apply DT.
    - exists delta. split; [auto|]. left. intros i j Hi Hj. rewrite Rabs_minus_sym. now apply DT.
    - exists (entries eps zero infty M). split; [exists M; auto|]. left. intros. rewrite Rminus_diag_eq, Rabs_R0 by reflexivity. exact eps_nn.
    - exists (entries eps zero infty M). split; [exists M; auto|]. left. intros. rewrite Rminus_diag_eq, Rabs_R0 by reflexivity. exact eps_nn. }
  destruct (is_hst (q_htype b) HST_ZERO || is_hst (q_htype b) HST_SEMIDEF || usingReg b) eqn:Br.
  2:{ cbn [pc]. intros _. destruct (Plain b eq_refl HM) as (Hu & A & B); [|eauto 8].
      intros T. rewrite T in Br. discriminate Br. }
  unfold regulariseHessian. set (b1 := set_q_regVal (N := N) n0 b).
  destruct (negb (o_enableRegularisation (q_opts b1))) eqn:ER.
  { cbn [bind pc]. intros _. destruct (Plain b1 eq_refl HM) as (Hu & A & B); [intros; apply Zero|]. exists b1, Hu. repeat split; auto; apply FB. }
  destruct (is_hst (q_htype b1) HST_IDENTITY) eqn:TI; [cbn [bind pc]; discriminate|].
  replace (usingReg b1) with false by (symmetry; apply Zero). destruct (is_hst (q_htype b1) HST_ZERO) eqn:TZ.
  { apply pc_assoc, pc_any. intros v. cbn [bind pc]. intros _. set (b2 := set_q_regVal (N := N) _ b1).
    assert (T : q_htype b = HST_ZERO) by (change (q_htype b1) with (q_htype b) in TZ; destruct (q_htype b); try discriminate TZ; reflexivity).
    exists b2, (fun i j => if usingReg b2 then q_regVal b2 * delta i j else 0). split; [reflexivity|]. split; [exact FB|].
    split; [unfold hess; change (q_htype b2) with (q_htype b); rewrite T; auto|]. rewrite T in DT. destruct DT as (_ & DT).
    destruct (usingReg b2); [right|left]; intros i j Hi Hj; specialize (DT i j Hi Hj).
    - replace (_ - _) with (- entries eps zero infty M i j) by ring. now rewrite Rabs_Ropp.
    - rewrite Rminus_0_l, Rabs_Ropp. exact DT. }
  unfold q_theH. change (q_H b1) with (q_H b). rewrite HM. cbn [bind]. apply pc_assoc, pc_any. intros v. cbv zeta.
  set (rv := q_regVal (set_q_regVal (N := N) _ b1)). destruct (addToDiag_stored n M rv Hn SM DM) as (M' & EM & SM' & VM). rcar. rewrite EM. cbn [bind]. 
  change (SUCCESSFUL_RETURN =r? RET_NO_DIAGONAL_AVAILABLE) with false. cbn [pc]. intros _.
  set (b2 := set_q_H (N := N) _ _). exists b2, (entries eps zero infty M'). split; [reflexivity|]. split; [exact FB|].
  split.
  - unfold hess. change (q_htype b2) with (q_htype b). change (q_htype b1) with (q_htype b) in TI, TZ. 
    destruct (q_htype b); try discriminate; try contradiction; (exists M'; split; [reflexivity|apply smat_ok; auto]).
  - right. intros i j Hi Hj. rewrite VM by assumption. change (q_regVal b2) with rv. rewrite Rminus_diag_eq, Rabs_R0 by reflexivity. exact eps_nn.
Qed.

(** ** The gradient *)
Definition trans_ok (m n : Z) (M : amat N) (Am : Z -> Z -> R) : Prop :=
  forall (x y : arr), (m <= zlen x)%Z -> (n <= zlen y)%Z ->
    exists y', a_transTimes (N := N) M 1 n1 x m n1 y n = Ok y' /\ zlen y' = zlen y /\
      forall j, (0 <= j < n)%Z -> zn 0 y' j = zn 0 y j + rsum 0 m (fun i => Am i j * zn 0 x i).
Lemma trans_empty n Am : (0 <= n)%Z -> trans_ok 0 n (ADense (N := N) (mkDense 0 0 0 [])) Am.
Proof.
  intros Hn x y _ Ly. assert (R1 : regular zero 1) by (apply unit_regular; auto). assert (Hz : 0 <= zero) by lra.
  destruct (C18_transTimes eps zero infty Hz (mkDense 0 0 0 []) 1 1 x 0 1 y n) as (y' & E & U); auto; try (cbn; lia).
  - split; cbn; lia.
  - split; cbn; lia.
  - apply strided1.
  - split; cbn; lia.
  - apply strided1.
  - exists y'. split; [exact E|]. apply updated1 in U as (L & _ & U). split; [exact L|]. intros j Hj. rewrite (rsum_empty 0 0) by lia. rewrite Rplus_0_r. apply U; cbn; lia.
Qed.
Lemma zn_tail (l : arr) n i : (0 <= n)%Z -> (0 <= i)%Z -> zn 0 (skipn (Z.to_nat n) l) i = zn 0 l (n + i).
Proof.
  intros Hn Hi. unfold zn. rewrite (skip_nth (N := N)). f_equal. lia.
Qed.
Lemma zlen_tail (l : arr) n m : (0 <= n)%Z -> zlen l = (n + m)%Z -> (0 <= m)%Z -> zlen (skipn (Z.to_nat n) l) = m.
Proof. intros Hn L Hm. unfold zlen in *. rewrite skipn_length. lia. Qed.
Lemma grad n m Hu Am M (s : qp N) : sized n m s -> hess eps zero infty n (p_b s) Hu -> p_A s = Some M -> trans_ok m n M Am ->
  pc (p_setupAuxiliaryQPgradient (N := N) s) (fun s' => exists g : arr, s' = up_b (N := N) (set_q_g (N := N) g) s /\ zlen g = n /\
    forall i, (0 <= i < n)%Z -> zn 0 g i = zn 0 (q_y (p_b s)) i - matvec n Hu (zn 0 (q_x (p_b s))) i + rsum 0 m (fun j => Am j i * zn 0 (q_y (p_b s)) (n + j))).
Proof.
  intros Z0 HE HA TO. destruct Z0. unfold p_setupAuxiliaryQPgradient, on_b. apply pc_assoc.
  destruct (wp_inv _ _ (gradient_of eps zero infty n (p_b s) Hu sz_n0 sz_V0 sz_g0 sz_x0 ltac:(rcar; lia) HE)) as (b & E & g & -> & Lg & Vg).
  rewrite E. cbn [bind]. unfold p_theA. change (p_A (set_p_b (N := N) (set_q_g (N := N) g (p_b s)) s)) with (p_A s). rewrite HA. cbn [bind].
  set (s1 := set_p_b (N := N) (set_q_g (N := N) g (p_b s)) s). replace (pV s1) with n by (symmetry; exact sz_V0). replace (pC s1) with m by (symmetry; exact sz_C0).
  change (q_y (p_b s1)) with (q_y (p_b s)). change (q_g (p_b s1)) with g.
  destruct (TO (skipn (Z.to_nat n) (q_y (p_b s))) g) as (g' & E' & Lg' & Vg').
  - rewrite (zlen_tail _ n m); auto; lia.
  - rcar; lia.
  - rcar. rewrite E'. cbn [bind pc]. exists g'. split; [reflexivity|]. split; [congruence|]. intros i Hi. rewrite Vg' by exact Hi. rewrite Vg by exact Hi. f_equal.
    apply rsum_ext. intros j Hj. rewrite zn_tail by lia. reflexivity.
Qed.

(** ** The working set *)
Lemma attempt_dat lbn ubn lbAn ubAn oB oC (s : qp N) : (0 <= pV s)%Z -> (0 <= pC s)%Z ->
  pc (sq_attempt (N := N) junk lbn ubn lbAn ubAn oB oC s) (fun '(_, _, _, _, s') => dat s s').
Proof.
  intros Hn Hm. unfold sq_attempt. cbv zeta.
  set (s1 := up_b (N := N) _ s). assert (D1 : dat s s1) by (apply dat_bounds; [apply dat_refl|apply n_init; exact Hn]). clearbody s1.
  assert (C1 : (0 <= pC s1)%Z) by (destruct D1 as (_ & _ & _ & ->); exact Hm).
  set (s2 := set_p_cons (N := N) _ s1). assert (D2 : dat s s2) by (apply dat_cons; [exact D1|apply n_init; exact C1]). clearbody s2.
  eapply pc_bind; [apply d_types, D2|]. intros s3 D3.
  eapply pc_bind; [apply n_setupAll|]. intros [r1 bd] N1. unfold samen in N1. cbn [snd] in N1.
  set (s4 := up_b (N := N) _ s3). assert (D4 : dat s s4) by (apply dat_bounds; [exact D3|exact N1]). clearbody s4.
  destruct (negb (r1 =r? _)); [exact D4|].
  eapply pc_bind; [apply n_setupAll|]. intros [r2 cn] N2. unfold samen in N2. cbn [snd] in N2.
  set (s5 := set_p_cons (N := N) _ s4). assert (D5 : dat s s5) by (apply dat_cons; [exact D4|exact N2]). clearbody s5.
  destruct (negb (r2 =r? _)); [exact D5|].
  eapply pc_bind; [apply d_tq, D5|]. intros [r3 s6] D6. unfold dok in D6. cbn [snd] in D6.
  destruct (negb (r3 =r? _)); [exact D6|].
  apply pc_any. intros oC'. apply pc_any. intros oB'.
  eapply pc_bind; [apply d_afresh, D6|]. intros [r4 s7] D7. unfold dok in D7. cbn [snd] in D7.
  destruct (negb (r4 =r? _)); [exact D7|].
  eapply pc_bind; [apply d_cproj, D7|]. intros [r5 s8] D8. exact D8.
Qed.

(** ** Limits moved to the iterate *)
Definition moved (v l u l' u' : R) : Prop := (l' = l \/ l' = v) /\ (u' = u \/ u' = v).
Definition defined (b : subjectTo) : Prop := forall i, (0 <= i < st_n b)%Z -> zs (st_status b) i <> ST_UNDEFINED.
Lemma moved_refl v l u : moved v l u l u.
Proof. split; auto. Qed.
Lemma moved_trans v l u l1 u1 l2 u2 : moved v l u l1 u1 -> moved v l1 u1 l2 u2 -> moved v l u l2 u2.
Proof. unfold moved. intuition congruence. Qed.
Lemma limits_moved rlx (v l u : R) st eq aux : pc (auxLimits (N := N) false rlx v v l u st eq aux)
  (fun w => match w with Some (l', u') => moved v l u l' u' | None => st = ST_UNDEFINED end).
Proof. unfold auxLimits, moved. destruct st, eq; cbn; auto. Qed.
Lemma status_undefined b i : (0 <= i < st_n b)%Z -> st_getStatus b i = Ok ST_UNDEFINED -> ~ defined b.
Proof.
  unfold st_getStatus, defined. intros Hi E D. apply (D i Hi).
  destruct (Z.leb_spec 0 i), (Z.ltb_spec i (st_n b)); try lia. cbn [andb] in E. unfold rd, zn in *. destruct (0 <=? i)%Z; [|discriminate]. destruct (nth_error (st_status b) (Z.to_nat i)) as [v|] eqn:Q; [|discriminate]. injection E as ->. now apply nth_error_nth.
Qed.

Lemma adjust n m (s : qp N) : sized n m s ->
  pc (sq_adjust (N := N) s) (fun s' => exists lb ub lbA ubA Al Au : arr,
    s' = set_p_Ax_u (N := N) Au (set_p_Ax_l (N := N) Al (set_p_ubA (N := N) ubA (set_p_lbA (N := N) lbA (up_b (N := N) (fun b => set_q_ub (N := N) ub (set_q_lb (N := N) lb b)) s)))) /\
    zlen lb = n /\ zlen ub = n /\ zlen lbA = m /\ zlen ubA = m /\ zlen Al = m /\ zlen Au = m /\
    (forall i, (0 <= i < n)%Z -> moved (zn 0 (q_x (p_b s)) i) (zn 0 (q_lb (p_b s)) i) (zn 0 (q_ub (p_b s)) i) (zn 0 lb i) (zn 0 ub i)) /\
    (forall i, (0 <= i < m)%Z -> moved (zn 0 (p_Ax s) i) (zn 0 (p_lbA s) i) (zn 0 (p_ubA s) i) (zn 0 lbA i) (zn 0 ubA i)) /\
    (defined (p_bounds s) -> defined (p_cons s) -> forall i, (0 <= i < m)%Z -> zn 0 Al i = zn 0 (p_Ax s) i - zn 0 lbA i /\ zn 0 Au i = zn 0 ubA i - zn 0 (p_Ax s) i)).
Proof.
  intros Z0. destruct Z0. unfold sq_adjust. rewrite sz_C0.
  eapply pc_bind; [apply (pc_pw2 m _ (p_Ax_l s) (p_Ax_u s) (fun i _ _ l u => l = zn 0 (p_Ax s) i /\ u = zn 0 (p_Ax s) i))|]; auto.
  { intros i a b Hi La Lb. rx. wx. wx. pw2d. auto. }
  intros [Al Au] (L1 & L2 & V). unfold p_setupAuxiliaryQPbounds. cbv zeta. apply pc_assoc.
  set (s1 := set_p_Ax_u (N := N) Au (set_p_Ax_l (N := N) Al s)).
  replace (pV s1) with n by (symmetry; exact sz_V0).
  set (BI := fun '(lb, ub) => zlen lb = n /\ zlen ub = n /\ forall i, (0 <= i < n)%Z ->
      moved (zn 0 (q_x (p_b s)) i) (zn 0 (q_lb (p_b s)) i) (zn 0 (q_ub (p_b s)) i) (zn 0 lb i) (zn 0 ub i)).
  eapply pc_bind; [apply (pc_forb_up (fun _ => BI) (fun t => BI t /\ ~ defined (p_bounds s)))|].
  { repeat split; auto. }
  { intros i [lb ub] Hi (B1 & B2 & B3).
    destruct (st_getStatus (p_bounds s1) i) as [v| |] eqn:Ev; cbn [bind]; try exact I. apply pc_any. intros ty.
    change (q_x (p_b s1)) with (q_x (p_b s)). rx. rx. rx. eapply pc_bind; [apply limits_moved|]. intros [[l u]|] Hw.
    - wx. wx. cbn [pc BI]. rewrite !zlen_zupd. split; [exact B1|]. split; [exact B2|]. intros k Hk. rewrite !zn_zupd by lia.
      destruct (Z.eqb_spec k i) as [->|]; [|auto]. eapply moved_trans; [apply B3; exact Hk|exact Hw].
    - cbn [pc]. split; [cbn; auto|]. apply (status_undefined _ i); [change (st_n (p_bounds s)) with (pV s); lia|]. rewrite Hw in Ev. exact Ev. }
  intros [[lb ub]|[lb ub]].
  2:{ intros ((B1 & B2 & B3) & Un). cbn [bind pc]. exists lb, ub, (p_lbA s), (p_ubA s), Al, Au. repeat split; auto; try (apply B3; assumption); contradiction. }
  intros (B1 & B2 & B3). set (s2 := up_b (N := N) _ s1). replace (pC s2) with m by (symmetry; exact sz_C0). apply pc_assoc.
  set (CI := fun k '(lbA, ubA, Bl, Bu) => zlen lbA = m /\ zlen ubA = m /\ zlen Bl = m /\ zlen Bu = m /\
      (forall i, (0 <= i < m)%Z -> moved (zn 0 (p_Ax s) i) (zn 0 (p_lbA s) i) (zn 0 (p_ubA s) i) (zn 0 lbA i) (zn 0 ubA i)) /\
      (forall i, (0 <= i < k)%Z -> zn 0 Bl i = zn 0 (p_Ax s) i - zn 0 lbA i /\ zn 0 Bu i = zn 0 ubA i - zn 0 (p_Ax s) i) /\
      (forall i, (k <= i < m)%Z -> zn 0 Bl i = zn 0 (p_Ax s) i /\ zn 0 Bu i = zn 0 (p_Ax s) i)).
  eapply pc_bind; [apply (pc_forb_up CI (fun t => (exists k, CI k t) /\ ~ defined (p_cons s)))|].
  { cbn. repeat split; auto; try (intros; lia); apply V; lia. }
  { intros i [[[lbA ubA] Bl] Bu] Hi (C1 & C2 & C3 & C4 & C5 & C6 & C7).
    destruct (st_getStatus (p_cons s2) i) as [v| |] eqn:Ev; cbn [bind]; try exact I. apply pc_any. intros ty.
    rx. rx. rx. rx. destruct (C7 i ltac:(lia)) as (X1 & X2). rcar. rewrite X1, X2. eapply pc_bind; [apply limits_moved|]. intros [[l u]|] Hw.
    - wx. wx. wx. wx. cbn [pc CI]. rewrite !zlen_zupd. split; [exact C1|]. split; [exact C2|]. split; [exact C3|]. split; [exact C4|].
      split; [|split]; intros k Hk; rewrite !zn_zupd by lia; destruct (Z.eqb_spec k i) as [->|]; try lia.
      + eapply moved_trans; [apply C5; lia|exact Hw].
      + apply C5; lia.
      + split; reflexivity.
      + apply C6; lia.
      + apply C7; lia.
    - cbn [pc]. split; [exists i; cbn; repeat split; auto; try (apply C5; assumption); try (apply C6; assumption); apply C7; assumption|].
      apply (status_undefined _ i); [change (st_n (p_cons s)) with (pC s); lia|]. rewrite Hw in Ev. exact Ev. }
  intros [[[[lbA ubA] Bl] Bu]|[[[lbA ubA] Bl] Bu]] C; cbn [bind pc].
  - destruct C as (C1 & C2 & C3 & C4 & C5 & C6 & _). exists lb, ub, lbA, ubA, Bl, Bu. split; [reflexivity|]. repeat (split; [assumption|]). intros _ _ i Hi. apply C6. lia.
  - destruct C as ((k & C1 & C2 & C3 & C4 & C5 & _) & Un). exists lb, ub, lbA, ubA, Bl, Bu. split; [reflexivity|]. repeat (split; [assumption|]). contradiction.
Qed.

(** ** The optimality conditions, one index at a time *)
Definition okpair (l u v y : R) : Prop := l <= v <= u /\ (0 < y -> l = v) /\ (y < 0 -> u = v).
Lemma optimal_iff n m Hm Am (s : qp N) : pair_optimal n m Hm Am s <->
  (forall i, (0 <= i < n)%Z -> okpair (zn 0 (q_lb (p_b s)) i) (zn 0 (q_ub (p_b s)) i) (zn 0 (q_x (p_b s)) i) (zn 0 (q_y (p_b s)) i)) /\
  (forall i, (0 <= i < m)%Z -> okpair (zn 0 (p_lbA s) i) (zn 0 (p_ubA s) i) (Axv n Am s i) (zn 0 (q_y (p_b s)) (n + i))) /\
  (forall i, (0 <= i < n)%Z -> zn 0 (q_g (p_b s)) i = zn 0 (q_y (p_b s)) i - matvec n Hm (zn 0 (q_x (p_b s))) i + rsum 0 m (fun j => Am j i * zn 0 (q_y (p_b s)) (n + j))).
Proof.
  unfold pair_optimal, Kkt.kkt, Kkt.feasible, Kkt.complementary, Kkt.within, Kkt.stationarity, okpair. cbn [Kkt.q_nV Kkt.q_nC Kkt.q_H Kkt.q_g Kkt.q_A Kkt.q_lb Kkt.q_ub Kkt.q_lbA Kkt.q_ubA storedqp].
  change (Kkt.Hx (storedqp n m Hm Am s) (zn 0 (q_x (p_b s)))) with (matvec n Hm (zn 0 (q_x (p_b s)))).
  change (Kkt.Ax (storedqp n m Hm Am s) (zn 0 (q_x (p_b s)))) with (Axv n Am s).
  split.
  - intros ((F1 & F2) & ST & C1 & C2). split; [|split].
    + intros i Hi. specialize (F1 i Hi). specialize (C1 i Hi). destruct F1 as (A & B), C1 as (C & D). split; [split; [now apply A|now apply B]|].
      split; intros Y; [specialize (C Y)|specialize (D Y)]; congruence.
    + intros i Hi. specialize (F2 i Hi). specialize (C2 i Hi). destruct F2 as (A & B), C2 as (C & D). split; [split; [now apply A|now apply B]|].
      split; intros Y; [specialize (C Y)|specialize (D Y)]; congruence.
    + intros i Hi. specialize (ST i Hi). lra.
  - intros (B & C & ST). split; [split|split; [|split]].
    + intros i Hi. destruct (B i Hi) as ((P & Q) & _). split; intros b [= <-]; assumption.
    + intros i Hi. destruct (C i Hi) as ((P & Q) & _). split; intros b [= <-]; assumption.
    + intros i Hi. specialize (ST i Hi). lra.
    + intros i Hi. destruct (B i Hi) as (_ & P & Q). split; intros Y; f_equal; auto.
    + intros i Hi. destruct (C i Hi) as (_ & P & Q). split; intros Y; f_equal; auto.
Qed.
Lemma okpair_moved l u v y l' u' : okpair l u v y -> moved v l u l' u' -> okpair l' u' v y.
Proof. unfold okpair, moved. intros ((A & B) & C & D) ([-> | ->] & [-> | ->]); repeat split; auto; lra. Qed.

(** the state between the steps of the function *)
Definition between (n m : Z) (Hu Am : Z -> Z -> R) (s : qp N) : Prop :=
  sized n m s /\ pair_optimal n m Hu Am s /\ slacks n m Am s /\ forall i, (0 <= i < m)%Z -> zn 0 (p_Ax s) i = Axv n Am s i.
Lemma between_dat n m Hu Am s s' : dat s s' -> between n m Hu Am s -> between n m Hu Am s'.
Proof.
  intros ((E1 & E2 & E3 & E4 & E5 & E6 & E7 & E8) & (F1 & F2 & F3 & F4 & F5 & F6) & G1 & G2) (SZ & PO & SL & AX). split; [|split; [|split]].
  - destruct SZ. constructor; congruence.
  - unfold pair_optimal, storedqp in *. rewrite E1, E2, E3, E4, E5, F2, F3. exact PO.
  - unfold slacks in *. rewrite E1, F2, F3, F5, F6. exact SL.
  - unfold Axv in *. rewrite E1, F4. exact AX.
Qed.

(** C52.  An object that has solved its problem is given new matrices: x and y are
    kept, and they are optimal for the problem with the new matrices and the adapted
    gradient and limits. *)
Theorem C52_new_matrices_keep_optimal n m H A lbn ubn lbAn ubAn HmO AmO Am (s s' : qp N) :
  (0 < n)%Z -> sized n m s -> slacks n m AmO s -> pair_optimal n m HmO AmO s ->
  match A with Some M => astored m n M Am | None => True end -> (m = 0%Z -> p_A s = Some (ADense (mkDense 0 0 0 []))) ->
  match H with Some M => stored_exactly eps zero infty n M /\ diagonal_stored n M | None => hess eps zero infty n (p_b s) HmO end ->
  sq_setupNewAuxiliaryQP (N := N) junk H A lbn ubn lbAn ubAn s = Ok (SUCCESSFUL_RETURN, s') ->
  exists Hu, pair_optimal n m Hu Am s' /\
    match H with Some M => close_to n (entries eps zero infty M) Hu (q_regVal (p_b s')) | None => Hu = HmO end /\
    q_x (p_b s') = q_x (p_b s) /\ q_y (p_b s') = q_y (p_b s) /\ q_status (p_b s') = QPS_AUXILIARYQPSOLVED /\
    (0 < m -> p_A s' = A)%Z /\ sized n m s' /\ (defined (p_bounds s') -> defined (p_cons s') -> slacks n m Am s').
Proof.
  intros Hn SZ SL PO HA HA0 HH Run. revert s' Run.
  cut (pc (sq_setupNewAuxiliaryQP (N := N) junk H A lbn ubn lbAn ubAn s) (fun '(r, s') => r = SUCCESSFUL_RETURN -> exists Hu, pair_optimal n m Hu Am s' /\
    match H with Some M => close_to n (entries eps zero infty M) Hu (q_regVal (p_b s')) | None => Hu = HmO end /\
    q_x (p_b s') = q_x (p_b s) /\ q_y (p_b s') = q_y (p_b s) /\ q_status (p_b s') = QPS_AUXILIARYQPSOLVED /\
    (0 < m -> p_A s' = A)%Z /\ sized n m s' /\ (defined (p_bounds s') -> defined (p_cons s') -> slacks n m Am s'))).
  { intros P s' Run. now apply (pc_eq _ _ _ P Run). }
  unfold sq_setupNewAuxiliaryQP. destruct (sq_refuses s); [cbn [pc]; discriminate|]. cbv zeta.
  set (s1 := up_b (N := N) (set_q_status (N := N) QPS_PREPARINGAUXILIARYQP) s).
  assert (SZ1 : sized n m s1) by (destruct SZ; constructor; auto). pose proof (sz_C _ _ _ SZ1) as C1. rewrite C1.
  set (go := fun s0 : qp N => _).
  (* the rest, once the limits fit the constraint matrix in use *)
  assert (Go : forall s2 M, p_b s2 = p_b s1 -> p_A s2 = Some M -> (0 < m -> A = Some M)%Z -> trans_ok m n M Am -> sized n m s2 -> slacks n m Am s2 ->
    (forall i, (0 <= i < m)%Z -> zn 0 (p_Ax s2) i = Axv n Am s2 i /\ okpair (zn 0 (p_lbA s2) i) (zn 0 (p_ubA s2) i) (Axv n Am s2 i) (zn 0 (q_y (p_b s2)) (n + i))) ->
    pc (go s2) (fun '(r, s') => r = SUCCESSFUL_RETURN -> exists Hu, pair_optimal n m Hu Am s' /\
      match H with Some M => close_to n (entries eps zero infty M) Hu (q_regVal (p_b s')) | None => Hu = HmO end /\
      q_x (p_b s') = q_x (p_b s) /\ q_y (p_b s') = q_y (p_b s) /\ q_status (p_b s') = QPS_AUXILIARYQPSOLVED /\
      (0 < m -> p_A s' = A)%Z /\ sized n m s' /\ (defined (p_bounds s') -> defined (p_cons s') -> slacks n m Am s'))).
  { intros s2 M EB EA EM TO SZ2 SL2 V2. unfold go. clear go.
    (* Hessian *)
    eapply pc_bind with (P := fun '(r, s3) => r = SUCCESSFUL_RETURN -> exists b' Hu, s3 = set_p_b (N := N) b' s2 /\ hfr (p_b s2) b' /\
      hess eps zero infty n b' Hu /\ match H with Some M => close_to n (entries eps zero infty M) Hu (q_regVal b') | None => Hu = HmO end).
    { destruct H as [MH|].
      - eapply pc_mono; [apply (newH n MH s2 ltac:(lia) (sz_V _ _ _ SZ2)); tauto|]. intros [r s3] K. exact K.
      - unfold sq_newH. destruct (q_H (p_b s2)); cbn [pc]; [discriminate|]. intros _. exists (p_b s2), HmO. split; [destruct s2; reflexivity|].
        split; [repeat split|]. split; [|reflexivity]. rewrite EB. exact HH. }
    intros [r s3] K. destruct (negb (r =r? SUCCESSFUL_RETURN)) eqn:Er; [cbn [pc]; intros ->; discriminate Er|].
    assert (r = SUCCESSFUL_RETURN) as -> by (apply negb_false_iff, rv_eqb_eq in Er; exact Er). destruct (K eq_refl) as (b' & Hu & -> & FR & HE & CL). clear K.
    destruct FR as (X1 & X2 & X3 & X4 & X5 & X6 & X7). set (s3 := set_p_b (N := N) b' s2).
    assert (SZ3 : sized n m s3). { destruct SZ2. constructor; auto; unfold s3; cbn [p_b set_p_b]; try congruence. exact (eq_trans (f_equal st_n X6) sz_V0). }
    (* gradient *)
    eapply pc_bind; [apply (grad n m Hu Am M s3 SZ3 HE EA TO)|]. intros s4 (g & -> & Lg & Vg). set (s4 := up_b (N := N) (set_q_g (N := N) g) s3).
    assert (B4 : between n m Hu Am s4).
    { split; [|split; [|split]].
      - destruct SZ3. constructor; auto.
      - apply optimal_iff. apply optimal_iff in PO. destruct PO as (P1 & _ & _). split; [|split].
        + intros i Hi. specialize (P1 i Hi). cbn [q_lb q_ub q_x q_y p_b s4 s3 up_b set_p_b set_q_g]. rewrite X1, X2, X3, X4, EB. exact P1.
        + intros i Hi. destruct (V2 i Hi) as (_ & V). unfold Axv in *. cbn [q_lb q_ub q_x q_y p_b s4 s3 up_b set_p_b set_q_g p_lbA p_ubA] in *. rewrite X1, X2. exact V.
        + intros i Hi. exact (Vg i Hi).
      - unfold slacks in *. cbn [q_lb q_ub q_x q_y p_b s4 s3 up_b set_p_b set_q_g p_lbA p_ubA p_Ax_l p_Ax_u]. rewrite X1. exact SL2.
      - intros i Hi. destruct (V2 i Hi) as (V & _). unfold Axv in *. cbn [q_x p_b s4 s3 up_b set_p_b set_q_g p_Ax]. rewrite X1. exact V. }
    assert (Fin : forall s5, dat s4 s5 -> forall s6 : qp N, pair_optimal n m Hu Am s6 -> q_x (p_b s6) = q_x (p_b s5) -> q_y (p_b s6) = q_y (p_b s5) -> q_regVal (p_b s6) = q_regVal (p_b s5) ->
       p_A s6 = p_A s5 -> sized n m s6 -> (defined (p_bounds s6) -> defined (p_cons s6) -> slacks n m Am s6) -> q_status (p_b s6) = QPS_AUXILIARYQPSOLVED ->
       exists Hu, pair_optimal n m Hu Am s6 /\
      match H with Some M => close_to n (entries eps zero infty M) Hu (q_regVal (p_b s6)) | None => Hu = HmO end /\
      q_x (p_b s6) = q_x (p_b s) /\ q_y (p_b s6) = q_y (p_b s) /\ q_status (p_b s6) = QPS_AUXILIARYQPSOLVED /\
      (0 < m -> p_A s6 = A)%Z /\ sized n m s6 /\ (defined (p_bounds s6) -> defined (p_cons s6) -> slacks n m Am s6)).
    { intros s5 ((D1 & D2 & D3 & D4 & D5 & D6 & D7 & D8) & (D9 & _) & _) s6 P6 Y1 Y2 Y3 Y4 Y5 Y6 Y7. exists Hu. split; [exact P6|].
      split; [rewrite Y3, D7; exact CL|]. split; [rewrite Y1, D1; cbn; rewrite X1, EB; reflexivity|]. split; [rewrite Y2, D2; cbn; rewrite X2, EB; reflexivity|].
      split; [exact Y7|]. split; [intros Hm; rewrite Y4, D9, (EM Hm); exact EA|]. auto. }
    eapply pc_bind; [apply attempt_dat; [rewrite (sz_V _ _ _ (proj1 B4)); lia|rewrite (sz_C _ _ _ (proj1 B4)); apply SZ]|].
    intros [[[[r1 rc1] oB1] oC1] s5] D5. destruct (negb (r1 =r? _)) eqn:Er1; [cbn [pc]; intros ->; discriminate Er1|]. clear Er1.
    pose proof (between_dat _ _ _ _ _ _ D5 B4) as B5.
    destruct (rc1 =r? SUCCESSFUL_RETURN).
    { cbn [pc]. intros _. destruct B5 as (B5a & B5b & B5c & _). apply (Fin s5 D5); try reflexivity; [exact B5b|destruct B5a; constructor; auto|intros _ _; exact B5c]. }
    apply pc_any. intros oB2.
    eapply pc_bind; [apply attempt_dat; [rewrite (sz_V _ _ _ (proj1 B5)); lia|rewrite (sz_C _ _ _ (proj1 B5)); apply SZ]|].
    intros [[[[r2 rc2] oB3] oC3] s6] D6. destruct (negb (r2 =r? _)) eqn:Er2; [cbn [pc]; intros ->; discriminate Er2|]. clear Er2.
    pose proof (between_dat _ _ _ _ _ _ D6 B5) as (S6 & P6 & L6 & A6). pose proof (dat_trans _ _ _ D5 D6) as D.
    eapply pc_bind; [apply (adjust n m s6 S6)|]. intros s7 (lb & ub & lbA & ubA & Al & Au & -> & K1 & K2 & K3 & K4 & K5 & K6 & MB & MC & MS). cbn [pc]. intros _.
    apply (Fin s6 D); try reflexivity.
    - apply optimal_iff in P6. destruct P6 as (P6a & P6b & P6c). apply optimal_iff. split; [|split].
      + intros i Hi. eapply okpair_moved; [exact (P6a i Hi)|exact (MB i Hi)].
      + intros i Hi. eapply okpair_moved; [exact (P6b i Hi)|]. specialize (MC i Hi). rewrite (A6 i Hi) in MC. exact MC.
      + exact P6c.
    - destruct S6. constructor; auto.
    - intros Q1 Q2 i Hi. specialize (MS Q1 Q2 i Hi). rewrite (A6 i Hi) in MS. exact MS. }

  destruct (Z.ltb_spec 0 m) as [Hm|Hm].
  - destruct A as [M|]; [|cbn [pc]; discriminate].
    assert (PR : products m n M Am) by (apply astored_products; [lia|lia|exact HA]).
    eapply pc_bind; [apply (newA n m M Am s1 Hn SZ1 PR)|]. intros s2 (EB & EA & SZ2 & V). apply (Go s2 M EB EA); [auto|exact (proj2 PR)|exact SZ2| |].
    + intros i Hi. destruct (V i Hi) as (_ & V2 & V3 & V4 & V5). change (rsum 0 n (fun j => Am i j * zn 0 (q_x (p_b s2)) j)) with (Axv n Am s2 i).
      replace (Axv n Am s2 i) with (Axv n Am s1 i) by (unfold Axv; now rewrite EB). rcar. rewrite V2, V3, V4, V5. split; lra.
    + intros i Hi. destruct (V i Hi) as (V1 & V2 & V3 & _). replace (Axv n Am s2 i) with (Axv n Am s1 i) by (unfold Axv; now rewrite EB).
      split; [exact V1|]. apply optimal_iff in PO. destruct PO as (_ & PO & _). specialize (PO i Hi). destruct (SL i Hi) as (S1 & S2).
      change (rsum 0 n (fun j => AmO i j * zn 0 (q_x (p_b s)) j)) with (Axv n AmO s i) in S1, S2.
      change (p_Ax_l s1) with (p_Ax_l s) in V2. change (p_Ax_u s1) with (p_Ax_u s) in V3. rewrite EB. change (q_y (p_b s1)) with (q_y (p_b s)).
      destruct PO as ((O1 & O2) & O3 & O4). rcar. unfold okpair. rewrite V2, V3, S1, S2. split; [lra|]. split; intros Y; [specialize (O3 Y)|specialize (O4 Y)]; lra.
  - assert (m = 0%Z) as E0 by (pose proof (sz_m _ _ _ SZ); lia). apply (Go s1 (ADense (mkDense 0 0 0 [])) eq_refl (HA0 E0)); [lia|rewrite E0; apply trans_empty; lia|exact SZ1| |]; intros i Hi; lia.
Qed.
(** With a positive semidefinite symmetric Hessian, the old iterate is a minimiser of
    the auxiliary problem. *)
Corollary C52_new_matrices_keep_minimiser n m H A lbn ubn lbAn ubAn HmO AmO Am (s s' : qp N) :
  (0 < n)%Z -> sized n m s -> slacks n m AmO s -> pair_optimal n m HmO AmO s ->
  match A with Some M => astored m n M Am | None => True end -> (m = 0%Z -> p_A s = Some (ADense (mkDense 0 0 0 []))) ->
  match H with Some M => stored_exactly eps zero infty n M /\ diagonal_stored n M | None => hess eps zero infty n (p_b s) HmO end ->
  sq_setupNewAuxiliaryQP (N := N) junk H A lbn ubn lbAn ubAn s = Ok (SUCCESSFUL_RETURN, s') ->
  exists Hu, match H with Some M => close_to n (entries eps zero infty M) Hu (q_regVal (p_b s')) | None => Hu = HmO end /\
    (Kkt.symmetric (storedqp n m Hu Am s') -> Kkt.psd (storedqp n m Hu Am s') ->
     Kkt.minimiser (storedqp n m Hu Am s') (zn 0 (q_x (p_b s)))).
Proof.
  intros Hn SZ SL PO HA HA0 HH Run. destruct (C52_new_matrices_keep_optimal n m H A lbn ubn lbAn ubAn HmO AmO Am s s' Hn SZ SL PO HA HA0 HH Run) as (Hu & PO' & CL & EX & _).
  exists Hu. split; [exact CL|]. intros Sy Ps. rewrite <- EX. destruct SZ. eapply Kkt.kkt_minimiser; eauto; cbn; lia.
Qed.
End SQ.

(** An object at the solution x = 1, y = (0,2) of  min 1/2 x^2 - 3 x,  -5 <= x <= 5,
    -1 <= x <= 1 (the constraint has the multiplier -2), and the matrices H = 2, A = 3.
    [C54_ex] runs such a call. *)
Definition sqx_N := RNumT (1/1000) (1/1000000) 1000.
Definition sqx : qp sqx_N :=
  let s := p_new (N := sqx_N) (fun n => repeat 0 (Z.to_nat n)) 1 1 HST_POSDEF optDefault in
  set_p_A (N := sqx_N) (Some (ADense (N := sqx_N) (mkDense 1 1 1 [1]))) (set_p_lbA (N := sqx_N) [-1] (set_p_ubA (N := sqx_N) [1]
  (set_p_Ax (N := sqx_N) [1] (set_p_Ax_l (N := sqx_N) [2] (set_p_Ax_u (N := sqx_N) [0]
  (up_b (N := sqx_N) (fun b => set_q_status (N := sqx_N) QPS_SOLVED (set_q_H (N := sqx_N) (Some (SDense (N := sqx_N) (mkDense 1 1 1 [1])))
    (set_q_g (N := sqx_N) [-3] (set_q_lb (N := sqx_N) [-5] (set_q_ub (N := sqx_N) [5] (set_q_x (N := sqx_N) [1] (set_q_y (N := sqx_N) [0; -2] b))))))) s)))))).
Example C52_ex : (0 <= 1/1000 /\ 0 <= 1/1000000 < 1) /\ (0 < 1)%Z /\ sized _ _ _ 1 1 sqx /\ slacks _ _ _ 1 1 (fun _ _ => 1) sqx /\ pair_optimal _ _ _ 1 1 (fun _ _ => 1) (fun _ _ => 1) sqx /\
  astored (1/1000) (1/1000000) 1000 1 1 (ADense (N := sqx_N) (mkDense 1 1 1 [3])) (dmat (mkDense 1 1 1 [3])) /\
  (1 = 0 -> p_A sqx = Some (ADense (mkDense 0 0 0 [])))%Z /\
  stored_exactly (1/1000) (1/1000000) 1000 1 (SDense (N := sqx_N) (mkDense 1 1 1 [2])) /\ diagonal_stored (1/1000) (1/1000000) 1000 1 (SDense (N := sqx_N) (mkDense 1 1 1 [2])) /\
  sq_refuses (N := sqx_N) sqx = false.
Proof.
  assert (I0 : forall i, (0 <= i < 1)%Z -> i = 0%Z) by lia.
  assert (WD : forall a : R, wf_dense (mkDense 1 1 1 [a])) by (intros a; repeat split; cbn; unfold zlen; cbn; lia).
  assert (S1 : forall f, rsum 0 1 f = f 0%Z) by (intros f; change (f 0%Z + 0 = f 0%Z); lra).
  split; [lra|]. split; [lia|]. split; [constructor; first [reflexivity|lia]|].
  split. { intros i Hi. apply I0 in Hi as ->. rewrite S1. change (2 = 1 * 1 - -1 /\ 0 = 1 - 1 * 1). lra. }
  split. { apply optimal_iff. unfold okpair, Axv, matvec. split; [|split]; intros i Hi; apply I0 in Hi as ->; rewrite ?S1.
    - change (-5 <= 1 <= 5 /\ (0 < 0 -> -5 = 1) /\ (0 < 0 -> 5 = 1)). lra.
    - change (-1 <= 1 * 1 <= 1 /\ (0 < -2 -> -1 = 1 * 1) /\ (-2 < 0 -> 1 = 1 * 1)). lra.
    - change (-3 = 0 - 1 * 1 + 1 * -2). lra. }
  split; [split; [apply WD|repeat split]|]. split; [lia|]. split; [split; [apply WD|repeat split]|]. split; [exact I|reflexivity].
Qed.

Print Assumptions C52_new_matrices_keep_optimal.
Print Assumptions C52_ex.
