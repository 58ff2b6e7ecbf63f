(** C67: QProblem's step direction solves the linearised optimality system,
    after every sequence of changes of the working set.  Exact arithmetic. *)
From Verif Require Import Base Types Num Options Indexlist IndexlistProofs Loops RSum LinSpec SafeLib SubjectTo SubjectToProofs SubjectToProofs2
  Flipper PropFlipper Matrices MatLib MatSafe CsLib PropDense PropSparse PropSparse2 LinAlg PropLinAlg QProblemB QPBSafe QPBSafe2 QPBX1 QPBX2 QPBX3 QPBX4 QProblem QProblem2
  QPX1 QPX2 QPX3 QPX4 QPX5 QPX6 QPX7 QPX8 QPX9 QPX10 QPX11 QPX12 QPX13 QPX14 QPX15 QPX16 QPX18 QPX19 QPX20 QPX21 QPX17 QPBSafe3 QPBSafe6 QProblem3 PropAux PropTQ PropTQ2.
Local Open Scope R_scope.

Section C67.
Variables eps zero infty : R.
Notation N := (RNumT eps zero infty).
Notation arr := (list R).
Notation fr := (fr eps zero infty).
Notation ac := (ac eps zero infty).

(** ** Specification *)
Definition fx (s : qp N) (i : Z) : Z := zn 0%Z (p_FX s) i.
Definition bst (s : qp N) (i : Z) : SubjectToStatus := zn ST_UNDEFINED (st_status (p_bounds s)) i.
Definition cst (s : qp N) (i : Z) : SubjectToStatus := zn ST_UNDEFINED (st_status (p_cons s)) i.

(** working vectors as long as the constructor makes them (QProblem.cpp:156-164, QProblemB.cpp:160) *)
Definition scratch (s : qp N) : Prop :=
  zlen (p_tempA s : arr) = pV s /\ zlen (p_tempB s : arr) = pC s /\ zlen (q_tmp (p_b s) : arr) = pV s /\ zlen (p_dxy s : arr) = pC s /\
  zlen (p_dxz s : arr) = pV s /\ zlen (p_ZFR s : arr) = pV s /\ zlen (p_dyAC s : arr) = pC s.
(** so are the shifts and the vectors for the result *)
Definition fits (s : qp N) (d : pshift (N := N)) (p : pstep (N := N)) : Prop :=
  zlen (sh_g d : arr) = pV s /\ zlen (sh_lbA d : arr) = pC s /\ zlen (sh_ubA d : arr) = pC s /\ zlen (sh_lb d : arr) = pV s /\ zlen (sh_ub d : arr) = pV s /\
  zlen (sp_xFX p : arr) = pV s /\ zlen (sp_xFR p : arr) = pV s /\ zlen (sp_yAC p : arr) = pC s /\ zlen (sp_yFX p : arr) = pV s.

(** directions over all variables and constraints, from the compressed ones *)
Definition unpacksP (s : qp N) (p : pstep (N := N)) (dx dy dyA : Z -> R) : Prop :=
  (forall i, (0 <= i < pFR s)%Z -> dx (fr s i) = zn 0 (sp_xFR p : arr) i /\ dy (fr s i) = 0) /\
  (forall i, (0 <= i < pFX s)%Z -> dx (fx s i) = zn 0 (sp_xFX p : arr) i /\ dy (fx s i) = zn 0 (sp_yFX p : arr) i) /\
  (forall i, (0 <= i < pAC s)%Z -> dyA (ac s i) = zn 0 (sp_yAC p : arr) i) /\
  (forall k, (0 <= k < pC s)%Z -> cst s k = ST_INACTIVE -> dyA k = 0).
(** H dx + dg = dy + A' dyA; what is active moves with its bound, unless the
    caller says that these do not move ([bBz], [bCz]); the multipliers of what is
    inactive do not move *)
Definition linearisedP (Am Hm : Z -> Z -> R) (s : qp N) (d : pshift (N := N)) (bCz bBz : bool) (dx dy dyA : Z -> R) : Prop :=
  (forall i, (0 <= i < pV s)%Z -> matvec (pV s) Hm dx i + zn 0 (sh_g d : arr) i = dy i + rsum 0 (pC s) (fun k => Am k i * dyA k) /\
    match bst s i with
    | ST_INACTIVE => dy i = 0
    | ST_LOWER => dx i = if bBz then 0 else zn 0 (sh_lb d : arr) i
    | ST_UPPER => dx i = if bBz then 0 else zn 0 (sh_ub d : arr) i
    | _ => False
    end) /\
  (forall k, (0 <= k < pC s)%Z -> match cst s k with
    | ST_INACTIVE => dyA k = 0
    | ST_LOWER => matvec (pV s) Am dx k = if bCz then 0 else zn 0 (sh_lbA d : arr) k
    | ST_UPPER => matvec (pV s) Am dx k = if bCz then 0 else zn 0 (sh_ubA d : arr) k
    | _ => False
    end).

(** the reasons for which no direction is returned: T has a diagonal entry that
    backsolveT takes for zero, or the Hessian vanishes on a nontrivial null space *)
Definition excused (s : qp N) (rv : returnValue) : Prop :=
  rv = RET_STEPDIRECTION_FAILED_TQ /\ (exists i, (0 <= i < pAC s)%Z /\ Rabs (Te eps zero infty s i (pAC s - 1 - i)) <= eps) \/
  rv = RET_UNKNOWN_BUG /\ q_htype (p_b s) = HST_ZERO /\ usingReg (p_b s) = false /\ (0 < pZ s)%Z.

(** ** Proof *)
Section St.
Variables (b : subjectTo) (a0 a1 : list Z).
Hypothesis W : st_wf b a0 a1.
Hypothesis SE : forall i, (0 <= i < st_n b)%Z -> settled (zs (st_status b) i).
Lemma st_covered i : (0 <= i < st_n b)%Z -> (exists p, (0 <= p < zlen a0)%Z /\ zz a0 p = i) \/ (exists q, (0 <= q < zlen a1)%Z /\ zz a1 q = i).
Proof using W SE.
  intros Hi. destruct (SE i Hi) as [E|[E|E]].
  - left. apply (In_zn 0%Z). apply (wf_in0 _ _ _ W). auto.
  - right. apply (In_zn 0%Z). apply (wf_in1 _ _ _ W). rewrite E. auto.
  - right. apply (In_zn 0%Z). apply (wf_in1 _ _ _ W). rewrite E. auto.
Qed.
Lemma st_apart p q : (0 <= p < zlen a0)%Z -> (0 <= q < zlen a1)%Z -> zz a0 p <> zz a1 q.
Proof using W.
  intros Hp Hq E. pose proof (zn_In 0%Z a0 p Hp) as A. pose proof (zn_In 0%Z a1 q Hq) as B. change (zn 0%Z a0 p) with (zz a0 p) in A. change (zn 0%Z a1 q) with (zz a1 q) in B. rewrite E in A.
  apply (wf_in0 _ _ _ W) in A. apply (wf_in1 _ _ _ W) in B. destruct A as (_ & A). destruct B as (_ & B). rewrite A in B. discriminate B.
Qed.
Lemma st_nd0 : NoDup a0. Proof using W. exact (rep_NoDup _ _ (wf_ina _ _ _ W)). Qed.
Lemma st_nd1 : NoDup a1. Proof using W. exact (rep_NoDup _ _ (wf_act _ _ _ W)). Qed.
Lemma st_split (f : Z -> R) : rsum 0 (st_n b) f = rsum 0 (zlen a0) (fun p => f (zz a0 p)) + rsum 0 (zlen a1) (fun q => f (zz a1 q)).
Proof using W SE.
  rewrite (rsum_ext 0 (st_n b) f (fun i => spread a0 (fun _ => 1) i * f i + spread a1 (fun _ => 1) i * f i)).
  - rewrite rsum_plus. rewrite (spread_sum (st_n b) a0) by (intros i Hi; now apply (wf_in0 _ _ _ W)). rewrite (spread_sum (st_n b) a1) by (intros i Hi; now apply (wf_in1 _ _ _ W)).
    f_equal; apply rsum_ext; intros; ring.
  - intros i Hi. destruct (st_covered i Hi) as [(p & Hp & <-)|(q & Hq & <-)].
    + rewrite (spread_at a0) by (auto using st_nd0). unfold spread. rewrite (rsum_0 0 (zlen a1)); [ring|]. intros q Hq. rewrite delta_ne by (intros E; apply (st_apart p q Hp Hq); congruence). ring.
    + rewrite (spread_at a1) by (auto using st_nd1). unfold spread. rewrite (rsum_0 0 (zlen a0)); [ring|]. intros p Hp. rewrite delta_ne by (now apply st_apart). ring.
Qed.
End St.

Hypothesis eps_nn : 0 <= eps.
Hypothesis zero_nn : 0 <= zero.

Lemma scratch_to c (s : qp N) : cwf eps zero infty (pV s) (pC s) c -> scratch (scr_to (N := N) c s).
Proof using.
  intros [C1 C2 C3 C4 C5 C6 C7]. exact (conj C1 (conj C2 (conj C3 (conj C4 (conj C5 (conj C6 C7)))))).
Qed.

Section Dir.
Variables (n m : Z) (Am Hm : Z -> Z -> R) (s : qp N) (l0 l1 k0 k1 : list Z).
Hypothesis I : pinv eps zero infty n m Am s l0 l1 k0 k1.
Hypothesis HD : hess eps zero infty n (p_b s) Hm.
Hypothesis RX : Rexact eps zero infty n s (zlen l0 - zlen k1) l0 Hm.

Lemma dir_fx i : (0 <= i < zlen l1)%Z -> fx s i = zz l1 i.
Proof using I. intros Hi. apply rd_zn; [lia|]. apply (rep_rd1 _ _ _ (pw_b _ _ _ _ _ _ _ _ _ _ _ (pi_w _ _ _ _ _ _ _ _ _ _ _ I)) i Hi). Qed.

Theorem direction (d : pshift (N := N)) bCz bBz (p : pstep (N := N)) : scratch s -> fits s d p -> (0 <= o_numRefinementSteps (p_opts s))%Z ->
  (forall i, (0 <= i < pV s)%Z -> settled (bst s i)) -> (forall k, (0 <= k < pC s)%Z -> settled (cst s k)) ->
  exists rv p' s', p_stepDirection (N := N) d bCz bBz p s = Ok (rv, p', s') /\
    (exists c, s' = scr_to (N := N) c s /\ scratch s') /\ fits s d p' /\
    (excused s rv \/ rv = RET_STEPDIRECTION_FAILED_CHOLESKY /\ plainH (p_b s) = true /\ 0 < zero \/
     rv = SUCCESSFUL_RETURN /\ (exists dx dy dyA, unpacksP s p' dx dy dyA) /\
       forall dx dy dyA, unpacksP s p' dx dy dyA -> linearisedP Am Hm s d bCz bBz dx dy dyA).
Proof using I HD RX eps_nn zero_nn.
  intros (S1 & S2 & S3 & S4 & S5 & S6 & S7) (F1 & F2 & F3 & F4 & F5 & F6 & F7 & F8 & F9) NR SB SC.
  destruct (br_dims _ _ _ _ _ _ _ _ _ _ _ I) as (En & Em & EF & EC & EX & ND).
  pose proof (mkdims eps zero infty n m Am s l0 l1 k0 k1 I) as DD. destruct DD.
  assert (CW : cwf eps zero infty n m (scr_of (N := N) s)) by (rewrite <- En, <- Em; constructor; cbn; assumption).
  assert (DW : shwf eps zero infty n m d) by (rewrite <- En, <- Em; constructor; rcar; lia).
  rewrite En in F6, F7, F9. rewrite Em in F8.
  destruct (wp_inv _ _ (pstep_exact eps zero infty eps_nn zero_nn n m Am Hm s l0 l1 k0 k1 I HD RX d bCz bBz DW p CW NR ltac:(rcar; lia) ltac:(rcar; lia) ltac:(rcar; lia) ltac:(rcar; lia))) as (((rv & p') & s') & E & (c & CW' & ->) & (P1 & P2 & P3 & P4) & P).
  exists rv, p', (scr_to (N := N) c s). split; [exact E|]. split.
  { exists c. split; [reflexivity|]. apply scratch_to. now rewrite En, Em. }
  split. { unfold fits. rewrite P1, P2, P3, P4, En, Em in *. repeat (split; [assumption|]). assumption. }
  destruct P as [(F & _)|(-> & _ & PD)].
  { destruct F as [(-> & i & Hi & F)|[(-> & F1' & F2' & F3')|(-> & F)]]; [left; left|left; right|right; left; auto].
    - split; [reflexivity|]. exists i. rewrite EC. split; [exact Hi|]. unfold Te. rewrite EC. unfold te in F. replace (i * p_sizeT s + (p_sizeT s - zlen k1 + (zlen k1 - 1 - i)))%Z with (i * p_sizeT s + (p_sizeT s - 1 - i))%Z by lia. exact F.
    - repeat (split; [first [reflexivity|assumption]|]). change (pZ s) with (pFR s - pAC s)%Z. rewrite EF, EC. exact F3'. }
  right. right. split; [reflexivity|].
  pose proof (pi_w _ _ _ _ _ _ _ _ _ _ _ I) as W. pose proof (pw_b _ _ _ _ _ _ _ _ _ _ _ W) as Wb. pose proof (pw_c _ _ _ _ _ _ _ _ _ _ _ W) as Wc.
  assert (FRE : forall i, (0 <= i < zlen l0)%Z -> fr s i = zz l0 i) by (intros i Hi; eapply br_fr; eauto).
  assert (ACE : forall i, (0 <= i < zlen k1)%Z -> ac s i = zz k1 i) by (intros i Hi; eapply br_ac; eauto).
  split.
  { exists (fun i => spread l0 (fun q => zn 0 (sp_xFR p' : arr) q) i + spread l1 (fun q => zn 0 (sp_xFX p' : arr) q) i), (spread l1 (fun q => zn 0 (sp_yFX p' : arr) q)), (spread k1 (fun q => zn 0 (sp_yAC p' : arr) q)).
    assert (Z1 : forall f q, (0 <= q < zlen l0)%Z -> spread l1 f (zz l0 q) = 0).
    { intros f q Hq. unfold spread. apply rsum_0. intros r Hr. rewrite delta_ne; [ring|]. intros X. apply (st_apart _ _ _ Wb q r Hq Hr). congruence. }
    assert (Z0 : forall f q, (0 <= q < zlen l1)%Z -> spread l0 f (zz l1 q) = 0).
    { intros f q Hq. unfold spread. apply rsum_0. intros r Hr. rewrite delta_ne; [ring|]. now apply (st_apart _ _ _ Wb r q Hr Hq). }
    split; [|split; [|split]].
    - intros i Hi. rewrite EF in Hi. rewrite FRE by exact Hi. rewrite (spread_at l0), !Z1 by (auto using (st_nd0 _ _ _ Wb)). split; ring.
    - intros i Hi. rewrite EX in Hi. rewrite dir_fx by exact Hi. rewrite !(spread_at l1), Z0 by (auto using (st_nd1 _ _ _ Wb)). split; ring.
    - intros i Hi. rewrite EC in Hi. rewrite ACE by exact Hi. apply (spread_at k1); auto. exact (st_nd1 _ _ _ Wc).
    - intros k Hk Ek. unfold spread. apply rsum_0. intros r Hr. rewrite delta_ne; [ring|]. intros X. pose proof (proj1 (wf_in1 _ _ _ Wc (zz k1 r)) (zn_In 0%Z k1 r Hr)) as (_ & A). rewrite X in A. unfold cst in Ek. rewrite Ek in A. discriminate A. }
  intros dx dy dyA (U0 & U1 & U2 & U3). destruct PD as [DX DF DA DM].
  assert (SB' : forall i, (0 <= i < st_n (p_bounds s))%Z -> settled (zs (st_status (p_bounds s)) i)) by exact SB.
  assert (SC' : forall i, (0 <= i < st_n (p_cons s))%Z -> settled (zs (st_status (p_cons s)) i)) by exact SC.
  assert (V0 : forall q, (0 <= q < zlen l0)%Z -> dx (zz l0 q) = zn 0 (sp_xFR p' : arr) q /\ dy (zz l0 q) = 0) by (intros q Hq; rewrite <- FRE by exact Hq; apply U0; lia).
  assert (V1 : forall q, (0 <= q < zlen l1)%Z -> dx (zz l1 q) = zn 0 (sp_xFX p' : arr) q /\ dy (zz l1 q) = zn 0 (sp_yFX p' : arr) q) by (intros q Hq; rewrite <- dir_fx by exact Hq; apply U1; lia).
  assert (V2 : forall q, (0 <= q < zlen k1)%Z -> dyA (zz k1 q) = zn 0 (sp_yAC p' : arr) q) by (intros q Hq; rewrite <- ACE by exact Hq; apply U2; lia).
  assert (MV : forall M i, matvec (pV s) M dx i = rsum 0 (zlen l0) (fun k => M i (zz l0 k) * zn 0 (sp_xFR p' : arr) k) + rsum 0 (zlen l1) (fun k => M i (zz l1 k) * zn 0 (sp_xFX p' : arr) k)).
  { intros M i. unfold matvec. change (pV s) with (st_n (p_bounds s)). rewrite (st_split _ _ _ Wb SB'). f_equal; apply rsum_ext; intros k Hk; [now rewrite (proj1 (V0 k Hk))|now rewrite (proj1 (V1 k Hk))]. }
  assert (MA : forall i, rsum 0 (pC s) (fun k => Am k i * dyA k) = rsum 0 (zlen k1) (fun k => Am (zz k1 k) i * zn 0 (sp_yAC p' : arr) k)).
  { intros i. change (pC s) with (st_n (p_cons s)). rewrite (st_split _ _ _ Wc SC'). rewrite (rsum_0 0 (zlen k0)).
    - rewrite Rplus_0_l. apply rsum_ext. intros k Hk. now rewrite V2.
    - intros k Hk. destruct (proj1 (wf_in0 _ _ _ Wc (zz k0 k)) (zn_In 0%Z k0 k Hk)) as (A1 & A2). rewrite U3; [ring|exact A1|exact A2]. }
  split.
  - intros i Hi. rewrite MV, MA. destruct (st_covered _ _ _ Wb SB' i Hi) as [(q & Hq & <-)|(q & Hq & <-)].
    + specialize (DF q Hq). unfold hx, dh, da in DF. rewrite (proj2 (V0 q Hq)). split; [lra|].
      destruct (proj1 (wf_in0 _ _ _ Wb (zz l0 q)) (zn_In 0%Z l0 q Hq)) as (_ & A). unfold bst. rewrite A. reflexivity.
    + specialize (DM q Hq). destruct (V1 q Hq) as (W2 & W3). rewrite W3. split; [rewrite DM; ring|]. specialize (DX q Hq).
      destruct (proj1 (wf_in1 _ _ _ Wb (zz l1 q)) (zn_In 0%Z l1 q Hq)) as (_ & A). change (is_active (bst s (zz l1 q)) = true) in A. unfold bB in DX. change (zs (st_status (p_bounds s)) (zz l1 q)) with (bst s (zz l1 q)) in DX.
      rewrite W2, DX. destruct (SB _ Hi) as [X|[X|X]]; rewrite X in A |- *; [discriminate A|reflexivity|reflexivity].
  - intros k Hk. rewrite MV. destruct (st_covered _ _ _ Wc SC' k Hk) as [(q & Hq & <-)|(q & Hq & <-)].
    + destruct (proj1 (wf_in0 _ _ _ Wc (zz k0 q)) (zn_In 0%Z k0 q Hq)) as (_ & A). unfold cst. rewrite A. apply U3; auto.
    + specialize (DA q Hq). unfold ax, da in DA. rewrite DA.
      destruct (proj1 (wf_in1 _ _ _ Wc (zz k1 q)) (zn_In 0%Z k1 q Hq)) as (_ & A). change (is_active (cst s (zz k1 q)) = true) in A. unfold bC. change (zs (st_status (p_cons s)) (zz k1 q)) with (cst s (zz k1 q)).
      destruct (SC _ Hk) as [X|[X|X]]; rewrite X in A |- *; [discriminate A|reflexivity|reflexivity].
Qed.
End Dir.
End C67.

(** C67: after every sequence of operations that leaves R up to date *)
Section Main.
Variables eps zero infty : R.
Notation N := (RNumT eps zero infty).
Variable junk : Z -> list R.
Hypothesis zero_0 : zero = 0.
Hypothesis eps_pos : 0 < eps.
Hypothesis J : junk_ok (N := N) junk.

Theorem C67_step_direction n m (Am Hm : Z -> Z -> R) (s : qp N) : ready eps zero infty n m Am Hm s ->
  exists s0 : qp N, setupTQfactorisation (N := N) s = Ok (SUCCESSFUL_RETURN, s0) /\
    forall os (s' : qp N), exec eps zero infty junk (sound eps zero infty Hm) Am false s0 os true s' ->
    forall (d : pshift (N := N)) (bCz bBz : bool) (p : pstep (N := N)), fits eps zero infty s' d p -> (0 <= o_numRefinementSteps (p_opts s'))%Z ->
      (forall i, (0 <= i < pV s')%Z -> settled (bst eps zero infty s' i)) -> (forall k, (0 <= k < pC s')%Z -> settled (cst eps zero infty s' k)) ->
    exists (rv : returnValue) (p' : pstep (N := N)) (s'' : qp N), p_stepDirection (N := N) d bCz bBz p s' = Ok (rv, p', s'') /\
      (exists c, s'' = scr_to (N := N) c s' /\ scratch eps zero infty s'') /\ fits eps zero infty s' d p' /\
      (excused eps zero infty s' rv \/
       rv = SUCCESSFUL_RETURN /\ (exists dx dy dyA, unpacksP eps zero infty s' p' dx dy dyA) /\
         forall dx dy dyA, unpacksP eps zero infty s' p' dx dy dyA -> linearisedP eps zero infty Am Hm s' d bCz bBz dx dy dyA).
Proof using zero_0 eps_pos J.
  intros RD. destruct (ready_good eps zero infty zero_0 n m Am Hm s RD) as (s0 & E & l0 & l1 & k0 & G). exists s0. split; [exact E|].
  intros os s' X. destruct (exec_exact eps zero infty junk zero_0 eps_pos J n m Am Hm _ _ _ _ _ X l0 l1 k0 [] G ltac:(discriminate)) as (l0' & l1' & k0' & k1' & (I & (HD & CW) & _) & RX).
  intros d bCz bBz p FT NR SB SS.
  assert (SC : scratch eps zero infty s').
  { destruct (br_dims _ _ _ _ _ _ _ _ _ _ _ I) as (En & Em & _). unfold scratch. rewrite En, Em. destruct CW as [C1 C2 C3 C4 C5 C6 C7]. exact (conj C1 (conj C2 (conj C3 (conj C4 (conj C5 (conj C6 C7)))))). }
  destruct (direction eps zero infty ltac:(lra) ltac:(lra) n m Am Hm s' l0' l1' k0' k1' I (proj1 HD) (RX eq_refl) d bCz bBz p SC FT NR SB SS) as (rv & p' & s'' & E' & C & F & P).
  exists rv, p', s''. split; [exact E'|]. split; [exact C|]. split; [exact F|]. destruct P as [P|[(_ & _ & P)|P]]; [left; exact P|exfalso; lra|right; exact P].
Qed.
End Main.

(** the hypotheses are met; here the direction is found *)
Example C67_ex : exists s s0 s1 (d : pshift (N := tqN)) (p p' : pstep (N := tqN)) s2, ready tq_eps 0 tq_inf 2 1 tq_Am tq_Hm s /\ setupTQfactorisation (N := tqN) s = Ok (SUCCESSFUL_RETURN, s0) /\
  exec tq_eps 0 tq_inf tq_junk (sound tq_eps 0 tq_inf tq_Hm) tq_Am false s0 [OChol] true s1 /\ fits tq_eps 0 tq_inf s1 d p /\ (0 <= o_numRefinementSteps (p_opts s1))%Z /\
  (forall i, (0 <= i < pV s1)%Z -> settled (bst tq_eps 0 tq_inf s1 i)) /\ (forall k, (0 <= k < pC s1)%Z -> settled (cst tq_eps 0 tq_inf s1 k)) /\
  p_stepDirection (N := tqN) d false false p s1 = Ok (SUCCESSFUL_RETURN, p', s2).
Proof.
  destruct (C47_ready tq_eps 0 tq_inf tq_junk eq_refl tq_junk_ok 2 1 HST_UNKNOWN optDefault tq_H [0; 0] tq_A None None None None) as (s & E & RD & V & C & O & HT & FX & AC & _ & IB & IC); try (exact I || lia || reflexivity || discriminate).
  { intros i j Hi Hj. assert (i = 0 \/ i = 1)%Z as [->| ->] by lia; assert (j = 0 \/ j = 1)%Z as [->| ->] by lia; reflexivity. }
  destruct (C48_first_factorisation tq_eps 0 tq_inf tq_junk eq_refl tq_eps_pos tq_junk_ok 2 1 tq_Am tq_Hm s RD tq_posdef) as (s0 & s1 & E0 & L0 & E1 & X1 & O1 & V1 & C1 & _ & K1 & B1 & T1); [unfold plainH, is_hst; rewrite HT; reflexivity|].
  destruct (C67_step_direction tq_eps 0 tq_inf tq_junk eq_refl tq_eps_pos tq_junk_ok 2 1 tq_Am tq_Hm s RD) as (s0' & E0' & D). assert (s0' = s0) by congruence. subst s0'.
  set (d := mkS (N := tqN) [1; 0] [0] [0] [0; 0] [0; 0]). set (p := mkP (N := tqN) [0; 0] [0; 0] [0] [0; 0]).
  assert (FT : fits tq_eps 0 tq_inf s1 d p) by (unfold fits; rewrite V1, V, C1, C; repeat split).
  assert (NR : (0 <= o_numRefinementSteps (p_opts s1))%Z) by (rewrite O1, O; vm_compute; discriminate).
  assert (GS : forall (b : subjectTo) i v, st_getStatus b i = Ok v -> v = ST_INACTIVE -> (0 <= i < st_n b)%Z -> settled (zs (st_status b) i)).
  { intros b i v Eg Ev Hi. unfold st_getStatus in Eg. destruct (Z.leb_spec 0 i); [|lia]. destruct (Z.ltb_spec i (st_n b)); [|lia]. cbn [andb] in Eg. left. apply rd_inv in Eg as (_ & Eg). rewrite Eg. exact Ev. }
  assert (SB : forall i, (0 <= i < pV s1)%Z -> settled (bst tq_eps 0 tq_inf s1 i)).
  { intros i Hi. unfold bst. rewrite B1. eapply (GS (p_bounds s)); [apply IB; rewrite V1, V in Hi; exact Hi|reflexivity|]. change (st_n (p_bounds s)) with (pV s). lia. }
  assert (SC : forall i, (0 <= i < pC s1)%Z -> settled (cst tq_eps 0 tq_inf s1 i)).
  { intros i Hi. unfold cst. rewrite K1. eapply (GS (p_cons s)); [apply IC; rewrite C1, C in Hi; exact Hi|reflexivity|]. change (st_n (p_cons s)) with (pC s). lia. }
  destruct (D [OChol] s1 X1 d false false p FT NR SB SC) as (rv & p' & s2 & E2 & _ & _ & K).
  exists s, s0, s1, d, p, p', s2. repeat (split; [assumption|]). rewrite E2. destruct K as [[(_ & i & Hi & _)|(_ & HZ & _)]|(-> & _)]; [exfalso|exfalso|reflexivity].
  - unfold pAC in Hi, AC. rewrite K1 in Hi. lia.
  - rewrite T1, HT in HZ. discriminate HZ.
Qed.

Print Assumptions C67_step_direction.
