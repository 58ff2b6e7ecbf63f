(** C49: the test for linear independence and the scaling of a constraint. *)
From Verif Require Import QPBX5 QPBX7 QPX18 QPX19 QPX20 QPX21 QPX22.
From Verif Require Import Base Types Num Options Indexlist IndexlistProofs Loops RSum LinSpec SafeLib SubjectTo SubjectToProofs Flipper PropFlipper Matrices LinAlg QProblemB QPBX2 QPBX3 QPBX4 QProblem QProblem2 QProblem3
  QPX1 QPX4 QPX8 QPX12 QPX13 QPX14 QPX15 QPX16 PropAux PropDense PropTQ PropTQ2.
From Coq Require Import QArith.
Local Open Scope R_scope.

Section LI.
Variables eps zero infty : R.
Notation N := (RNumT eps zero infty).
Notation arr := (list R).
Variable junk : Z -> arr.
Hypothesis zero_0 : zero = 0.
Hypothesis eps_pos : 0 < eps.
Hypothesis J : junk_ok (N := N) junk.
Notation pinv := (pinv eps zero infty).

(** states reached from a freshly set up problem by changes of the working set *)
Definition reach (n m : Z) (Am Hm : Z -> Z -> R) (s : qp N) : Prop := exists s0 s1 os rv,
  ready eps zero infty n m Am Hm s0 /\ setupTQfactorisation (N := N) s0 = Ok (SUCCESSFUL_RETURN, s1) /\
  (exec eps zero infty junk (cheap eps zero infty) Am false s1 os rv s \/ exec eps zero infty junk (sound eps zero infty Hm) Am false s1 os rv s).
Lemma reach_pinv n m Am Hm s : reach n m Am Hm s -> exists l0 l1 k0 k1, pinv n m Am s l0 l1 k0 k1.
Proof using zero_0 eps_pos J.
  intros (s0 & s1 & os & rv & RD & E & X). destruct (ready_good eps zero infty zero_0 n m Am Hm s0 RD) as (s1' & E' & l0 & l1 & k0 & G). assert (s1' = s1) by congruence. subst s1'.
  destruct X as [X|X].
  - destruct (exec_ok eps zero infty junk zero_0 eps_pos J n m Am Hm _ _ _ _ _ X l0 l1 k0 [] G) as (a & b & c & d & G'). exists a, b, c, d. apply G'.
  - destruct (exec_exact eps zero infty junk zero_0 eps_pos J n m Am Hm _ _ _ _ _ X l0 l1 k0 [] G ltac:(discriminate)) as (a & b & c & d & G' & _). exists a, b, c, d. apply G'.
Qed.

(** another tolerance; another constraint matrix *)
Definition tol (e : R) (s : qp N) : qp N := up_b (fun b => set_q_opts (N := N) (set_o_epsLITests (N := N) e (q_opts b)) b) s.
Definition scaled (n m : Z) (Am Am' : Z -> Z -> R) (number : Z) (c : R) : Prop :=
  forall i j, (0 <= i < m)%Z -> (0 <= j < n)%Z -> Am' i j = if (i =? number)%Z then c * Am i j else Am i j.

Lemma tol_pinv n m Am s l0 l1 k0 k1 e : pinv n m Am s l0 l1 k0 k1 -> pinv n m Am (tol e s) l0 l1 k0 k1.
Proof using.
  intros [W F Ly FA TQ]. constructor; [|destruct F; constructor; assumption|exact Ly|exact FA|exact TQ]. destruct W. constructor; assumption.
Qed.
Lemma scale_pinv n m Am Am' s M l0 l1 k0 k1 number c : pinv n m Am s l0 l1 k0 k1 -> ~ In number k1 -> scaled n m Am Am' number c -> amat_full eps zero infty m n M Am' ->
  pinv n m Am' (set_p_A (N := N) (Some M) s) l0 l1 k0 k1.
Proof using.
  intros [W F Ly FA TQ] NI SC FM. constructor; [|destruct F; constructor; assumption|exact Ly|exists M; split; [reflexivity|exact FM]|].
  - destruct W. constructor; try assumption. exists M. split; [reflexivity|apply FM].
  - destruct TQ as (LE & O & T & D). split; [exact LE|]. split; [exact O|]. split; [|exact D]. intros i p Hi Hp. refine (eq_trans _ (T i p Hi Hp)). unfold comb. apply lsum_ext. intros u Hu.
    pose proof (pw_n _ _ _ _ _ _ _ _ _ _ _ W) as En. pose proof (pw_m _ _ _ _ _ _ _ _ _ _ _ W) as Em.
    assert (Hu' : (0 <= u < n)%Z) by (rewrite <- En; exact (proj1 (range_b _ _ _ (pw_b _ _ _ _ _ _ _ _ _ _ _ W)) u Hu)).
    assert (Hi' : (0 <= zn 0%Z k1 i < m)%Z) by (rewrite <- Em; apply (proj2 (range_b _ _ _ (pw_c _ _ _ _ _ _ _ _ _ _ _ W))); apply zn_In; exact Hi).
    rewrite (SC _ _ Hi' Hu'). destruct (Z.eqb_spec (zn 0%Z k1 i) number) as [E|]; [|reflexivity]. exfalso. apply NI. rewrite <- E. apply zn_In. exact Hi.
Qed.
Lemma verdict (P : Z -> Prop) k r : (r = RET_LINEARLY_INDEPENDENT /\ (exists p, (0 <= p < k)%Z /\ P p)) \/ (r = RET_LINEARLY_DEPENDENT /\ (forall p, (0 <= p < k)%Z -> ~ P p)) ->
  (r = RET_LINEARLY_INDEPENDENT \/ r = RET_LINEARLY_DEPENDENT) /\ (r = RET_LINEARLY_INDEPENDENT <-> exists p, (0 <= p < k)%Z /\ P p).
Proof.
  intros [(-> & H)|(-> & H)]; (split; [auto|]); split; intros X; auto; try discriminate X. exfalso. destruct X as (p & Hp & Pp). exact (H p Hp Pp).
Qed.

Section At.
Variables (n m : Z) (Am Hm : Z -> Z -> R) (s : qp N) (number : Z).
Hypothesis RS : reach n m Am Hm s.
Hypothesis cheap : o_enableFullLITests (p_opts s) = false.
Hypothesis inactive : st_getStatus (p_cons s) number = Ok ST_INACTIVE.
Hypothesis in_range : (0 <= number < m)%Z.

(** Multiplying the row by c changes the verdict exactly as multiplying the
    tolerance by c does. *)
Theorem C49_scaling Am' M c : 0 < c -> scaled n m Am Am' number c -> amat_full eps zero infty m n M Am' ->
  exists r, (r = RET_LINEARLY_INDEPENDENT \/ r = RET_LINEARLY_DEPENDENT) /\
    addConstraint_checkLI (N := N) junk number (set_p_A (N := N) (Some M) s) = Ok (r, set_p_A (N := N) (Some M) s) /\
    addConstraint_checkLI (N := N) junk number (tol (c * o_epsLITests (p_opts s)) s) = Ok (r, tol (c * o_epsLITests (p_opts s)) s).
Proof using zero_0 eps_pos J RS cheap inactive in_range.
  intros Hc SC FM. destruct (reach_pinv _ _ _ _ _ RS) as (l0 & l1 & k0 & k1 & I).
  pose proof (pw_c _ _ _ _ _ _ _ _ _ _ _ (pi_w _ _ _ _ _ _ _ _ _ _ _ I)) as Wc. pose proof (pw_m _ _ _ _ _ _ _ _ _ _ _ (pi_w _ _ _ _ _ _ _ _ _ _ _ I)) as Em.
  assert (NI : ~ In number k1).
  { intros X. apply (wf_in1 _ _ _ Wc) in X as (Hr & A). rewrite (getStatus_ok _ _ _ _ Wc Hr) in inactive. injection inactive as X. rewrite X in A. discriminate A. }
  assert (I' := scale_pinv _ _ _ _ _ _ _ _ _ _ _ _ I NI SC FM). assert (I2 := tol_pinv _ _ _ _ _ _ _ _ (c * o_epsLITests (p_opts s)) I).
  destruct (checkLI_C eps zero infty junk J n m Am' _ l0 l1 k0 k1 number I' cheap in_range) as (r1 & E1 & V1).
  destruct (checkLI_C eps zero infty junk J n m Am _ l0 l1 k0 k1 number I2 cheap in_range) as (r2 & E2 & V2).
  apply verdict in V1 as (D1 & V1). apply verdict in V2 as (D2 & V2). exists r1. split; [exact D1|]. split; [exact E1|]. replace r1 with r2; [exact E2|].
  assert (X : r2 = RET_LINEARLY_INDEPENDENT <-> r1 = RET_LINEARLY_INDEPENDENT).
  { rewrite V1, V2. change (p_opts (set_p_A (N := N) (Some M) s)) with (p_opts s). change (o_epsLITests (p_opts (tol (c * o_epsLITests (p_opts s)) s))) with (c * o_epsLITests (p_opts s)).
    change (p_Q (set_p_A (N := N) (Some M) s)) with (p_Q s). change (p_Q (tol (c * o_epsLITests (p_opts s)) s)) with (p_Q s).
    assert (RG : forall u, In u l0 -> (0 <= u < n)%Z) by (intros u Hu; pose proof (pi_w _ _ _ _ _ _ _ _ _ _ _ I) as W; rewrite <- (pw_n _ _ _ _ _ _ _ _ _ _ _ W); exact (proj1 (range_b _ _ _ (pw_b _ _ _ _ _ _ _ _ _ _ _ W)) u Hu)).
    assert (S1 : lsum l0 (fun u => Am' number u * Am' number u) = c * c * lsum l0 (fun u => Am number u * Am number u)).
    { rewrite <- lsum_scal. apply lsum_ext. intros u Hu. rewrite !(SC _ _ in_range (RG u Hu)), Z.eqb_refl. ring. }
    assert (S2 : forall p, comb l0 (Am' number) (ce n (p_Q s)) p = c * comb l0 (Am number) (ce n (p_Q s)) p).
    { intros p. unfold comb. rewrite <- lsum_scal. apply lsum_ext. intros u Hu. rewrite (SC _ _ in_range (RG u Hu)), Z.eqb_refl. ring. }
    rewrite S1. set (L := lsum l0 _). set (e := o_epsLITests (p_opts s)).
    split; intros (p & Hp & K); exists p; (split; [exact Hp|]); [rewrite S2|rewrite S2 in K]; rewrite Rabs_mult, (Rabs_pos_eq c) in * by lra; set (a := Rabs (comb _ _ _ _)) in *; nra. }
  destruct D1 as [-> | ->], D2 as [-> | ->]; auto; [now apply X|symmetry; now apply X].
Qed.

(** With tolerance 0 the test is linear independence, so it does not depend on
    the scaling. *)
Theorem C49_exact : o_epsLITests (p_opts s) = 0 ->
  exists r, addConstraint_checkLI (N := N) junk number s = Ok (r, s) /\ (r = RET_LINEARLY_INDEPENDENT \/ r = RET_LINEARLY_DEPENDENT) /\ (r = RET_LINEARLY_INDEPENDENT <-> indep eps zero infty Am s (Am number)).
Proof using zero_0 eps_pos J RS cheap in_range.
  intros E0. destruct (reach_pinv _ _ _ _ _ RS) as (l0 & l1 & k0 & k1 & I). pose proof (pw_m _ _ _ _ _ _ _ _ _ _ _ (pi_w _ _ _ _ _ _ _ _ _ _ _ I)) as Em.
  destruct (checkLI_C eps zero infty junk J n m Am s l0 l1 k0 k1 number I cheap in_range) as (r & E & V). exists r. split; [exact E|]. apply verdict in V as (D & V). split; [exact D|]. rewrite V. rewrite E0.
  destruct (br_dims _ _ _ _ _ _ _ _ _ _ _ I) as (En & _ & EF & EC & _). split.
  - intros (p & Hp & K). assert (NZ : comb l0 (Am number) (ce n (p_Q s)) p <> 0) by (intros Z; rewrite Z, Rabs_R0 in K; lra).
    exists (fun j => Qe eps zero infty s j p). assert (T := pinv_exact _ _ _ _ _ _ _ _ _ _ _ I). split.
    + intros i Hi. apply (tq_zero _ _ _ _ _ T); [exact Hi|]. unfold pZ. lia.
    + intros Z. apply NZ. rewrite <- Z. symmetry. refine (eq_trans _ (br_sum _ _ _ _ _ _ _ _ _ _ _ I (fun u => Am number u * ce n (p_Q s) u p))). apply rsum_ext. intros j Hj. unfold Qe. rewrite En. reflexivity.
  - intros H. destruct (br_indep _ _ _ _ _ _ _ _ _ _ _ I _ H) as (p & Hp & K). exists p. split; [exact Hp|]. apply Rabs_pos_lt in K. lra.
Qed.

(** An accepted row stays accepted if it is made shorter. *)
Theorem C49_accepted Am' M c : 0 < c <= 1 -> 0 <= o_epsLITests (p_opts s) -> scaled n m Am Am' number c -> amat_full eps zero infty m n M Am' ->
  addConstraint_checkLI (N := N) junk number s = Ok (RET_LINEARLY_INDEPENDENT, s) ->
  addConstraint_checkLI (N := N) junk number (set_p_A (N := N) (Some M) s) = Ok (RET_LINEARLY_INDEPENDENT, set_p_A (N := N) (Some M) s).
Proof using zero_0 eps_pos J RS cheap inactive in_range.
  intros Hc He SC FM A. destruct (C49_scaling Am' M c ltac:(lra) SC FM) as (r & D & E1 & E2). rewrite E1. f_equal. f_equal.
  destruct (reach_pinv _ _ _ _ _ RS) as (l0 & l1 & k0 & k1 & I). assert (I2 := tol_pinv _ _ _ _ _ _ _ _ (c * o_epsLITests (p_opts s)) I).
  destruct (checkLI_C eps zero infty junk J n m Am s l0 l1 k0 k1 number I cheap in_range) as (r1 & X1 & V1). destruct (checkLI_C eps zero infty junk J n m Am _ l0 l1 k0 k1 number I2 cheap in_range) as (r2 & X2 & V2).
  assert (r1 = RET_LINEARLY_INDEPENDENT) by congruence. assert (r2 = r) by congruence. subst r1 r2. apply verdict in V1 as (_ & V1). apply verdict in V2 as (_ & V2). apply V2. destruct (proj1 V1 eq_refl) as (p & Hp & K). exists p. split; [exact Hp|].
  change (o_epsLITests (p_opts (tol (c * o_epsLITests (p_opts s)) s))) with (c * o_epsLITests (p_opts s)). change (p_Q (tol (c * o_epsLITests (p_opts s)) s)) with (p_Q s).
  eapply Rle_lt_trans; [|exact K]. assert (0 <= lsum l0 (fun u => Am number u * Am number u)) by (apply lsum_nonneg; intros; nra). apply Rmult_le_compat_r; [assumption|]. nra.
Qed.
End At.
(** ** The expensive test *)
(** states reached by changes of the working set, R being up to date *)
Definition reach_full (n m : Z) (Am Hm : Z -> Z -> R) (s : qp N) : Prop := exists s0 s1 os,
  ready eps zero infty n m Am Hm s0 /\ setupTQfactorisation (N := N) s0 = Ok (SUCCESSFUL_RETURN, s1) /\
  exec eps zero infty junk (sound eps zero infty Hm) Am false s1 os true s.
(** no diagonal entry of T is taken for zero, and the Hessian does not vanish on
    a nontrivial null space *)
Definition regular (s : qp N) : Prop := (forall i, (0 <= i < pAC s)%Z -> eps < Rabs (Te eps zero infty s i (pAC s - 1 - i))) /\ (q_htype (p_b s) = HST_ZERO -> usingReg (p_b s) = false -> (pZ s <= 0)%Z).

Section Full.
Variables (n m : Z) (Am Hm : Z -> Z -> R) (s : qp N).
Hypothesis RS : reach_full n m Am Hm s.
Hypothesis full : o_enableFullLITests (p_opts s) = true.
Hypothesis refine : (0 <= o_numRefinementSteps (p_opts s))%Z.
Hypothesis tolerance : 0 <= o_epsLITests (p_opts s).

Lemma reach_all : exists l0 l1 k0 k1, pinv n m Am s l0 l1 k0 k1 /\ hdata eps zero infty n s Hm /\ cwf eps zero infty n m (scr_of (N := N) s) /\ Rexact eps zero infty n s (zlen l0 - zlen k1) l0 Hm.
Proof using zero_0 eps_pos J RS.
  destruct RS as (s0 & s1 & os & RD & E & X). destruct (ready_good eps zero infty zero_0 n m Am Hm s0 RD) as (s1' & E' & l0 & l1 & k0 & G). assert (s1' = s1) by congruence. subst s1'.
  destruct (exec_exact eps zero infty junk zero_0 eps_pos J n m Am Hm _ _ _ _ _ X l0 l1 k0 [] G ltac:(discriminate)) as (a & b & c & d & (I & (HD & CW) & _) & RX). exists a, b, c, d. auto.
Qed.
Lemma regular_ok l0 l1 k0 k1 : pinv n m Am s l0 l1 k0 k1 -> regular s -> ~ smallT eps zero infty s k1 /\ curved eps zero infty s l0 k1.
Proof using.
  intros I (R1 & R2). destruct (br_dims _ _ _ _ _ _ _ _ _ _ _ I) as (En & Em & EF & EC & EX & ND). split.
  - intros (i & Hi & S). specialize (R1 i ltac:(lia)). unfold Te in R1. rewrite EC in R1. unfold te in S. replace (i * p_sizeT s + (p_sizeT s - zlen k1 + (zlen k1 - 1 - i)))%Z with (i * p_sizeT s + (p_sizeT s - 1 - i))%Z in R1 by lia. lra.
  - intros A B. specialize (R2 A B). change (pZ s) with (pFR s - pAC s)%Z in R2. lia.
Qed.

(** Multiplying the row by a positive factor does not change the verdict. *)
Theorem C49_full_scaling number Am' M c : (0 <= number < m)%Z -> st_getStatus (p_cons s) number = Ok ST_INACTIVE -> regular s -> 0 < c -> scaled n m Am Am' number c -> amat_full eps zero infty m n M Am' ->
  exists r t t', (r = RET_LINEARLY_INDEPENDENT \/ r = RET_LINEARLY_DEPENDENT) /\
    addConstraint_checkLI (N := N) junk number s = Ok (r, t) /\ addConstraint_checkLI (N := N) junk number (set_p_A (N := N) (Some M) s) = Ok (r, t').
Proof using zero_0 eps_pos J RS full refine tolerance.
  intros Rn inactive RG Hc SC FM. destruct reach_all as (l0 & l1 & k0 & k1 & I & HD & CW & RX). destruct (regular_ok _ _ _ _ I RG) as (NS & CV).
  pose proof (pi_w _ _ _ _ _ _ _ _ _ _ _ I) as W. pose proof (pw_c _ _ _ _ _ _ _ _ _ _ _ W) as Wc. assert (En := pw_n _ _ _ _ _ _ _ _ _ _ _ W). assert (Em := pw_m _ _ _ _ _ _ _ _ _ _ _ W).
  assert (NI : ~ In number k1).
  { intros X. apply (wf_in1 _ _ _ Wc) in X as (Hr & A). rewrite (getStatus_ok _ _ _ _ Wc Hr) in inactive. injection inactive as X. rewrite X in A. discriminate A. }
  assert (I' := scale_pinv _ _ _ _ _ _ _ _ _ _ _ _ I NI SC FM). assert (N0 : (0 <= n)%Z) by (rewrite <- (pf_lb _ _ _ _ _ _ (pi_f _ _ _ _ _ _ _ _ _ _ _ I)); apply zlen_nonneg).
  assert (LJ : zlen (junk n) = n) by (apply J; exact N0). destruct (pi_A _ _ _ _ _ _ _ _ _ _ _ I) as (M0 & EA & OA).
  destruct (range_b _ _ _ (pw_b _ _ _ _ _ _ _ _ _ _ _ W)) as (Rg0 & Rg1). change (st_n (p_bounds s)) with (pV s) in Rg0, Rg1. rewrite En in Rg0, Rg1.
  unfold addConstraint_checkLI, p_theA. change (p_A (set_p_A (N := N) (Some M) s)) with (Some M). change (p_opts (set_p_A (N := N) (Some M) s)) with (p_opts s). change (pV (set_p_A (N := N) (Some M) s)) with (pV s). rewrite EA. cbn [bind]. rewrite full, En.
  destruct (af_rowN _ _ _ _ _ _ _ OA number (junk n) Rn ltac:(lia)) as (dg & E1 & L1 & V1). destruct (af_rowN _ _ _ _ _ _ _ FM number (junk n) Rn ltac:(lia)) as (dg' & E1' & L1' & V1').
  rcar. rewrite E1, E1'. cbn [bind].
  destruct (fullLI_verdict eps zero infty ltac:(lra) zero_0 junk J n m Am Hm s l0 l1 k0 k1 I (proj1 HD) RX CW refine dg ltac:(lia) tolerance NS CV) as (r & t & x & y & w & E2 & F2 & K).
  destruct (fullLI_verdict eps zero infty ltac:(lra) zero_0 junk J n m Am' Hm (set_p_A (N := N) (Some M) s) l0 l1 k0 k1 I' (proj1 HD) RX CW refine dg' ltac:(lia) tolerance NS CV) as (r' & t' & x' & y' & w' & E2' & F2' & K').
  assert (SR : forall k u, (0 <= k < zlen k1)%Z -> (0 <= u < n)%Z -> Am' (zz k1 k) u = Am (zz k1 k) u).
  { intros k u Hk Hu. assert (Hi' : (0 <= zz k1 k < m)%Z) by (rewrite <- Em; apply (proj2 (range_b _ _ _ Wc)); apply zn_In; exact Hk). rewrite (SC _ _ Hi' Hu).
    destruct (Z.eqb_spec (zz k1 k) number) as [E|]; [|reflexivity]. exfalso. apply NI. rewrite <- E. apply zn_In. exact Hk. }
  assert (IN0 : forall j, (0 <= j < zlen l0)%Z -> (0 <= zz l0 j < n)%Z) by (intros j Hj; apply Rg0, zn_In; exact Hj). assert (IN1 : forall j, (0 <= j < zlen l1)%Z -> (0 <= zz l1 j < n)%Z) by (intros j Hj; apply Rg1, zn_In; exact Hj).
  assert (F3 : fsys Am Hm l0 l1 k1 (fun u => zn 0 dg' u) x' y' w').
  { destruct F2' as (A1 & A2 & A3). split; [|split]; intros i Hi.
    - etransitivity; [|exact (A1 i Hi)]. f_equal. apply rsum_ext. intros k Hk. unfold da. rewrite SR by auto. reflexivity.
    - etransitivity; [|exact (A2 i Hi)]. apply rsum_ext. intros j Hj. unfold da. rewrite SR by auto. reflexivity.
    - rewrite (A3 i Hi). f_equal. apply rsum_ext. intros k Hk. rewrite SR by auto. reflexivity. }
  destruct (fsys_scaled eps zero infty zero_0 n m Am Hm s l0 l1 k0 k1 I (proj1 HD) RX c (fun u => zn 0 dg u) x y w (fun u => zn 0 dg' u) x' y' w' CV) as (X & Y & Wx); [|exact F2|exact F3|].
  { intros u Hu. rewrite (V1 u Hu), (V1' u Hu). rewrite (SC _ _ Rn Hu), Z.eqb_refl. rnum. ring. }
  pose proof (beats_scaled l0 l1 k1 c (o_epsLITests (p_opts s)) x y w x' y' w' Hc X Y Wx) as BS. change (p_opts (set_p_A (N := N) (Some M) s)) with (p_opts s) in K'.
  assert (ER : r' = r) by (destruct K as [(-> & K)|(-> & K)], K' as [(-> & K')|(-> & K')]; try reflexivity; exfalso; tauto).
  exists r, (scr_to (N := N) t s), (scr_to (N := N) t' (set_p_A (N := N) (Some M) s)). split; [destruct K as [(-> & _)|(-> & _)]; auto|]. split; [exact E2|]. rewrite <- ER. exact E2'.
Qed.

(** What the expensive test accepts is linearly independent; with tolerance 0
    everything else is dependent. *)
Theorem C49_full_sound number : (0 <= number < m)%Z -> exists r t, addConstraint_checkLI (N := N) junk number s = Ok (r, t) /\ (r = RET_LINEARLY_INDEPENDENT -> indep eps zero infty Am s (Am number)) /\
  (o_epsLITests (p_opts s) = 0 -> plainH (p_b s) = true -> regular s -> r <> RET_LINEARLY_INDEPENDENT -> ~ indep eps zero infty Am s (Am number)).
Proof using zero_0 eps_pos J RS full refine tolerance.
  intros Rn. destruct reach_all as (l0 & l1 & k0 & k1 & I & HD & CW & RX). destruct (br_dims _ _ _ _ _ _ _ _ _ _ _ I) as (En & _ & EF & EC & _).
  pose proof (pi_w _ _ _ _ _ _ _ _ _ _ _ I) as W. assert (N0 : (0 <= n)%Z) by (rewrite <- (pf_lb _ _ _ _ _ _ (pi_f _ _ _ _ _ _ _ _ _ _ _ I)); apply zlen_nonneg). assert (LJ : zlen (junk n) = n) by (apply J; exact N0).
  destruct (pi_A _ _ _ _ _ _ _ _ _ _ _ I) as (M0 & EA & OA). destruct (af_rowN _ _ _ _ _ _ _ OA number (junk n) Rn ltac:(lia)) as (dg & E1 & L1 & V1).
  unfold addConstraint_checkLI, p_theA. rewrite EA. cbn [bind]. rewrite full, En. rcar. rewrite E1. cbn [bind].
  destruct (fullLI_ok eps zero infty ltac:(lra) ltac:(lra) junk J n m Am Hm s l0 l1 k0 k1 I (proj1 HD) RX CW refine dg ltac:(lia) tolerance) as (r & c & E & _ & _ & K).
  destruct (range_b _ _ _ (pw_b _ _ _ _ _ _ _ _ _ _ _ W)) as (Rg0 & _). change (st_n (p_bounds s)) with (pV s) in Rg0. rewrite En in Rg0.
  assert (CE : forall p, comb l0 (fun u => zn 0 dg u) (ce n (p_Q s)) p = comb l0 (Am number) (ce n (p_Q s)) p) by (intros p; unfold comb; apply lsum_ext; intros u Hu; rewrite V1 by (apply Rg0; exact Hu); reflexivity).
  exists r, (scr_to (N := N) c s). split; [exact E|]. split.
  - intros ->. destruct K as [(_ & p & Hp & K)|(K & _)]; [|contradiction]. rewrite CE in K. exists (fun j => Qe eps zero infty s j p). assert (T := pinv_exact _ _ _ _ _ _ _ _ _ _ _ I). split.
    + intros i Hi. apply (tq_zero _ _ _ _ _ T); [exact Hi|]. unfold pZ. lia.
    + intros Z0. apply K. rewrite <- Z0. symmetry. refine (eq_trans _ (br_sum _ _ _ _ _ _ _ _ _ _ _ I (fun u => Am number u * ce n (p_Q s) u p))). apply rsum_ext. intros j Hj. unfold Qe. rewrite En. reflexivity.
  - intros E0 PH RG Nr H. destruct K as [(K & _)|(_ & K)]; [contradiction|]. destruct (regular_ok _ _ _ _ I RG) as (NS & _). destruct (K E0 zero_0 PH) as [S|A]; [contradiction|].
    destruct (br_indep _ _ _ _ _ _ _ _ _ _ _ I _ H) as (p & Hp & Np). apply Np. rewrite <- CE. now apply A.
Qed.
End Full.
End LI.

(** The tolerance is compared with |a'z| / |a|^2: a long row is taken for dependent. *)
Definition verdict_of (a : Q) : option returnValue := match q_load 1 1 [1%Q] [a] optDefault with Ok s => match addConstraint_checkLI (N := QNum) ce_junk 0 s with Ok (r, _) => Some r | _ => None end | _ => None end.
Lemma verdict_run a r : verdict_of a = Some r -> exists s t, q_load 1 1 [1%Q] [a] optDefault = Ok s /\ addConstraint_checkLI (N := QNum) ce_junk 0 s = Ok (r, t).
Proof.
  unfold verdict_of. destruct (q_load 1 1 [1%Q] [a] optDefault) as [s| |]; try discriminate. destruct (addConstraint_checkLI (N := QNum) ce_junk 0 s) as [[r0 t]| |] eqn:E; try discriminate.
  intros X. injection X as ->. exists s, t. auto.
Qed.
Theorem C49_refuted : exists s s' t t', q_load 1 1 [1%Q] [1%Q] optDefault = Ok s /\ q_load 1 1 [1%Q] [100000000000%Q] optDefault = Ok s' /\
  addConstraint_checkLI (N := QNum) ce_junk 0 s = Ok (RET_LINEARLY_INDEPENDENT, t) /\ addConstraint_checkLI (N := QNum) ce_junk 0 s' = Ok (RET_LINEARLY_DEPENDENT, t').
Proof.
  assert (T : verdict_of 1 = Some RET_LINEARLY_INDEPENDENT) by (vm_compute; reflexivity). assert (T' : verdict_of 100000000000 = Some RET_LINEARLY_DEPENDENT) by (vm_compute; reflexivity).
  apply verdict_run in T as (s & t & E1 & E2). apply verdict_run in T' as (s' & t' & E1' & E2'). exists s, s', t, t'. auto.
Qed.

Example C49_ex : exists s, reach tq_eps 0 tq_inf tq_junk 2 1 tq_Am tq_Hm s /\ o_enableFullLITests (p_opts s) = false /\ st_getStatus (p_cons s) 0 = Ok ST_INACTIVE /\ 0 <= o_epsLITests (p_opts s) /\
  scaled 2 1 tq_Am (dmat (mkDense 1 2 2 [6; 8])) 0 2 /\ amat_full tq_eps 0 tq_inf 1 2 (ADense (N := tqN) (mkDense 1 2 2 [6; 8])) (dmat (mkDense 1 2 2 [6; 8])).
Proof.
  destruct (C47_ready tq_eps 0 tq_inf tq_junk eq_refl tq_junk_ok 2 1 HST_UNKNOWN optDefault tq_H [0; 0] tq_A None None None None) as (s & E & RD & V & C & O & HT & _ & _ & _ & _ & IA); try (exact I || lia || reflexivity || discriminate).
  { intros i j Hi Hj. assert (i = 0 \/ i = 1)%Z as [->| ->] by lia; assert (j = 0 \/ j = 1)%Z as [->| ->] by lia; reflexivity. }
  destruct (ready_good tq_eps 0 tq_inf eq_refl 2 1 tq_Am tq_Hm s RD) as (s1 & E1 & l0 & l1 & k0 & G & _). exists s1.
  assert (S1 : p_opts s1 = p_opts s /\ p_cons s1 = p_cons s).
  { destruct RD as (a & b & c & W & _). destruct (setupTQ_ok tq_eps 0 tq_inf 2 1 tq_Am s a b c W) as (T & Q & E' & _). rewrite E1 in E'. injection E' as ->. split; reflexivity. }
  destruct S1 as (S1 & S2). split; [exists s, s1, [], false; split; [exact RD|split; [exact E1|left; apply exec_nil]]|]. rewrite S1, O. split; [reflexivity|]. split.
  { rewrite S2. apply IA. lia. }
  split; [change (0 <= 100000 * tq_eps); unfold tq_eps; lra|]. split.
  - intros i j Hi Hj. assert (i = 0%Z) as -> by lia. assert (j = 0 \/ j = 1)%Z as [->| ->] by lia; vm_compute; ring.
  - apply (dense_amat_full tq_eps 0 tq_inf eq_refl); try reflexivity. unfold wf_dense, zlen. cbn. lia.
Qed.

Example C49_full_ex : exists s, reach_full tq_eps 0 tq_inf tq_junk 2 1 tq_Am tq_Hm s /\ o_enableFullLITests (p_opts s) = true /\ (0 <= o_numRefinementSteps (p_opts s))%Z /\ 0 <= o_epsLITests (p_opts s) /\
  regular tq_eps 0 tq_inf s /\ plainH (p_b s) = true /\ st_getStatus (p_cons s) 0 = Ok ST_INACTIVE.
Proof.
  destruct (C47_ready tq_eps 0 tq_inf tq_junk eq_refl tq_junk_ok 2 1 HST_UNKNOWN (set_o_enableFullLITests true optDefault) tq_H [0; 0] tq_A None None None None) as (s & E & RD & V & C & O & HT & _ & AC & _ & _ & IA); try (exact I || lia || reflexivity || discriminate).
  { intros i j Hi Hj. assert (i = 0 \/ i = 1)%Z as [->| ->] by lia; assert (j = 0 \/ j = 1)%Z as [->| ->] by lia; reflexivity. }
  destruct (C48_first_factorisation tq_eps 0 tq_inf tq_junk eq_refl tq_eps_pos tq_junk_ok 2 1 tq_Am tq_Hm s RD tq_posdef) as (s0 & s1 & E0 & L0 & E1 & X1 & O1 & V1 & C1 & _ & K1 & B1 & T1); [unfold plainH, is_hst; rewrite HT; reflexivity|].
  exists s1. split; [exists s, s0, [OChol]; auto|]. rewrite O1, O. split; [reflexivity|]. split; [vm_compute; discriminate|]. split; [change (0 <= 100000 * tq_eps); unfold tq_eps; lra|]. split; [split|split].
  - intros i Hi. unfold pAC in Hi, AC. rewrite K1 in Hi. lia.
  - rewrite T1, HT. discriminate.
  - unfold plainH, is_hst. rewrite T1, HT. reflexivity.
  - rewrite K1. apply IA. lia.
Qed.

Print Assumptions C49_scaling.
Print Assumptions C49_exact.
Print Assumptions C49_accepted.
Print Assumptions C49_refuted.
Print Assumptions C49_full_scaling.
Print Assumptions C49_full_sound.
