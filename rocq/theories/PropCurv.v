(** C74, C75: the test for zero curvature (enableNZCTests) passes when the curvature is large enough, and the
    removal is then the one made without the test. *)
From Coq Require Import QArith.
From Verif Require Import PropBudget.
From Verif Require Import Base Types Num Options Indexlist IndexlistProofs Loops RSum LinSpec SafeLib SubjectTo SubjectToProofs SubjectToProofs2
  Flipper PropFlipper Matrices MatLib MatSafe CsLib PropDense PropSparse PropSparse2 LinAlg PropLinAlg QProblemB QPBSafe QPBSafe2 QPBEx QPBX1 QPBX2 QPBX3 QPBX4 QPBX5 QPBX7 QPBX8 QPBX11 PropHess PropAux PropRatio
  QProblem QProblem2 QProblem3 QProblem4 QProblem5 QPFrame PropNull QProblem6 QPFrame2 QPFrame3 QPFrame4 PropSQ PropAuxP QPX1 QPX2 QPX3 QPX4 QPX5 QPX6 QPX7 QPX8 QPX9 QPX10 QPX11 QPX12 QPX14 QPX15 QPX16 QPX18 QPX19 QPX20 QPX21 QPX13 QPX17 PropTQ PropTQ2 PropStepP PropStepQ PropIter PropExch PropEnter PropLeave.
Local Open Scope R_scope.

(** the path through the test on which nothing is exchanged *)
Lemma nzc_path {N : Num} (junk : Z -> list N) (b0 : bool) (i0 : Z) (s : qp N) (K1 K2 : Z) (nul ek e1 : list N) v rv p s' (w1 w2 z1 z2 : N) :
  K1 = (if b0 then (if pV s <? pC s then pC s else pV s) else pV s)%Z -> K2 = (if b0 then pV s else pC s) ->
  for_up 0 K1 (fun i a => wr a i n0) (junk K1) = Ok nul -> for_up 0 K2 (fun i a => wr a i n0) (junk K2) = Ok ek ->
  st_getStatus (if b0 then p_bounds s else p_cons s) i0 = Ok v -> wr ek i0 (if is_sts v ST_LOWER then n1 else nm1) = Ok e1 ->
  p_stepDirection (if b0 then mkS nul nul nul e1 e1 else mkS nul e1 e1 nul nul) false (negb b0) (mkP (junk (pFX s)) (junk (pFR s)) (junk (pAC s)) (junk (pFX s))) s = Ok (rv, p, s') ->
  maxAbs (pAC s') (sp_yAC p) n0 = Ok w1 -> maxAbs (pFX s') (sp_yFX p) w1 = Ok w2 -> maxAbs (pFX s') (sp_xFX p) n0 = Ok z1 -> maxAbs (pFR s') (sp_xFR p) z1 = Ok z2 ->
  nltb w2 (nmul (o_epsNZCTests (p_opts s)) z2) = false ->
  ensureNonzeroCurvature junk b0 i0 s = Ok (rv, None, s').
Proof.
  intros E1 E2 E3 E4 E5 E6 E7 E8 E9 E10 E11 E12. unfold ensureNonzeroCurvature. cbv zeta. rewrite <- E1, <- E2, E3. cbn [bind]. rewrite E4. cbn [bind]. rewrite E5. cbn [bind]. rewrite E6. cbn [bind]. rewrite E7. cbn [bind].
  rewrite E8. cbn [bind]. rewrite E9. cbn [bind]. rewrite E10. cbn [bind]. rewrite E11. cbn [bind]. rewrite E12. reflexivity.
Qed.

Section Curv.
Variables eps zero infty : R.
Hypothesis zero_0 : zero = 0.
Hypothesis eps_pos : 0 < eps.
Notation N := (RNumT eps zero infty).
Notation arr := (list R).
Variable junk : Z -> arr.
Hypothesis J : junk_ok (N := N) junk.
Notation wsB := (wsB eps zero infty). Notation wsC := (wsC eps zero infty). Notation yB := (yB eps zero infty).
Notation ws := (ws eps zero infty). Notation kept := (kept eps zero infty). Notation statuses := (statuses eps zero infty).
Notation in_order := (PropIter.in_order eps zero infty).
Notation released := (released eps zero infty). Notation convex_without := (convex_without eps zero infty). Notation left_out := (left_out eps zero infty).
Notation fx := (fx eps zero infty). Notation fr := (PropTQ.fr eps zero infty). Notation ac := (PropTQ.ac eps zero infty).
Notation bst := (bst eps zero infty). Notation cst := (cst eps zero infty).
Notation unpacksP := (unpacksP eps zero infty). Notation linearisedP := (linearisedP eps zero infty).

(** ** What is meant *)
(** sum of the absolute values in the row of a bound (1) or constraint *)
Definition rowsum (n : Z) (Am : Z -> Z -> R) (b : bool) (i : Z) : R := rsum 0 n (fun j => Rabs (row Am b i j)).
(** the curvature in the directions that open up is at least [mu], in the maximum norm *)
Definition curved_by (mu : R) (n m : Z) (Am Hm : Z -> Z -> R) (s : qp N) (b0 : bool) (i0 : Z) : Prop :=
  forall v, released n m Am s b0 i0 v -> forall j, (0 <= j < n)%Z -> mu * (v j * v j) <= quad n Hm v.
(** no diagonal entry of T is taken for zero *)
Definition solidT (s : qp N) : Prop := forall i, (0 <= i < pAC s)%Z -> eps < Rabs (Te eps zero infty s i (pAC s - 1 - i)).
Definition all_settled (n m : Z) (s : qp N) : Prop := forall b i, in_range n m b i -> settled (ws s b i).

(** ** The direction, in vectors that are just long enough *)
Section Dir.
Variables (n m : Z) (Am Hm : Z -> Z -> R) (s : qp N) (l0 l1 k0 k1 : list Z).
Hypothesis I : pinv eps zero infty n m Am s l0 l1 k0 k1.
Hypothesis HD : hess eps zero infty n (p_b s) Hm.
Hypothesis RX : Rexact eps zero infty n s (zlen l0 - zlen k1) l0 Hm.

Lemma dir_room (d : pshift (N := N)) bCz bBz (p : pstep (N := N)) : cwf eps zero infty n m (scr_of (N := N) s) -> shwf eps zero infty n m d -> (0 <= o_numRefinementSteps (p_opts s))%Z ->
  (zlen l1 <= zlen (sp_xFX p : arr))%Z -> (zlen l0 <= zlen (sp_xFR p : arr))%Z -> (zlen k1 <= zlen (sp_yAC p : arr))%Z -> (zlen l1 <= zlen (sp_yFX p : arr))%Z ->
  (forall i, (0 <= i < pV s)%Z -> settled (bst s i)) -> (forall k, (0 <= k < pC s)%Z -> settled (cst s k)) -> solidT s -> q_htype (p_b s) <> HST_ZERO ->
  exists p' c, p_stepDirection (N := N) d bCz bBz p s = Ok (SUCCESSFUL_RETURN, p', scr_to (N := N) c s) /\ cwf eps zero infty n m c /\ plen eps zero infty p p' /\
    (exists dx dy dyA, unpacksP s p' dx dy dyA) /\ forall dx dy dyA, unpacksP s p' dx dy dyA -> linearisedP Am Hm s d bCz bBz dx dy dyA.
Proof using I HD RX eps_pos zero_0.
  intros CW DW NR F6 F7 F8 F9 SB SC ST HZ. assert (eps_nn : 0 <= eps) by lra. assert (zero_nn : 0 <= zero) by lra.
  destruct (br_dims _ _ _ _ _ _ _ _ _ _ _ I) as (En & Em & EF & EC & EX & ND).
  pose proof (mkdims eps zero infty n m Am s l0 l1 k0 k1 I) as DD. destruct DD.
  destruct (wp_inv _ _ (pstep_exact eps zero infty eps_nn zero_nn n m Am Hm s l0 l1 k0 k1 I HD RX d bCz bBz DW p CW NR ltac:(rcar; lia) ltac:(rcar; lia) ltac:(rcar; lia) ltac:(rcar; lia))) as (((rv & p') & s') & E & (c & CW' & ->) & PL & P).
  destruct P as [(F & _)|(-> & _ & PD)].
  { exfalso. destruct F as [(-> & i & Hi & F)|[(-> & F1' & F2' & F3')|(-> & _ & F)]]; [|contradiction|lra].
    specialize (ST i ltac:(lia)). unfold Te in ST. rewrite EC in ST. unfold te in F. replace (i * p_sizeT s + (p_sizeT s - zlen k1 + (zlen k1 - 1 - i)))%Z with (i * p_sizeT s + (p_sizeT s - 1 - i))%Z in ST by lia. apply (Rlt_irrefl eps). eapply Rlt_le_trans; [exact ST|exact F]. }
  exists p', c. split; [exact E|]. split; [exact CW'|]. split; [exact PL|].
  pose proof (pi_w _ _ _ _ _ _ _ _ _ _ _ I) as W. pose proof (pw_b _ _ _ _ _ _ _ _ _ _ _ W) as Wb. pose proof (pw_c _ _ _ _ _ _ _ _ _ _ _ W) as Wc.
  assert (FRE : forall i, (0 <= i < zlen l0)%Z -> fr s i = zz l0 i) by (intros i Hi; eapply br_fr; eauto).
  assert (ACE : forall i, (0 <= i < zlen k1)%Z -> ac s i = zz k1 i) by (intros i Hi; eapply br_ac; eauto).
  split.
  { exists (fun i => spread l0 (fun q => zn 0 (sp_xFR p' : arr) q) i + spread l1 (fun q => zn 0 (sp_xFX p' : arr) q) i), (spread l1 (fun q => zn 0 (sp_yFX p' : arr) q)), (spread k1 (fun q => zn 0 (sp_yAC p' : arr) q)).
    assert (Z1 : forall f q, (0 <= q < zlen l0)%Z -> spread l1 f (zz l0 q) = 0).
    { intros f q Hq. unfold spread. apply rsum_0. intros r Hr. rewrite delta_ne; [ring|]. intros X. apply (st_apart _ _ _ Wb q r Hq Hr). congruence. }
    assert (Z0 : forall f q, (0 <= q < zlen l1)%Z -> spread l0 f (zz l1 q) = 0).
    { intros f q Hq. unfold spread. apply rsum_0. intros r Hr. rewrite delta_ne; [ring|]. now apply (st_apart _ _ _ Wb r q Hr Hq). }
    split; [|split; [|split]].
    - intros i Hi. rewrite EF in Hi. rewrite FRE by exact Hi. rewrite (spread_at l0), !Z1 by (auto using (st_nd0 _ _ _ Wb)). split; ring.
    - intros i Hi. rewrite EX in Hi. rewrite (dir_fx eps zero infty n m Am s l0 l1 k0 k1 I) by exact Hi. rewrite !(spread_at l1), Z0 by (auto using (st_nd1 _ _ _ Wb)). split; ring.
    - intros i Hi. rewrite EC in Hi. rewrite ACE by exact Hi. apply (spread_at k1); auto. exact (st_nd1 _ _ _ Wc).
    - intros k Hk Ek. unfold spread. apply rsum_0. intros r Hr. rewrite delta_ne; [ring|]. intros X. pose proof (proj1 (wf_in1 _ _ _ Wc (zz k1 r)) (zn_In 0%Z k1 r Hr)) as (_ & A). rewrite X in A. unfold cst in Ek. rewrite Ek in A. discriminate A. }
  intros dx dy dyA (U0 & U1 & U2 & U3). destruct PD as [DX DF DA DM].
  assert (SB' : forall i, (0 <= i < st_n (p_bounds s))%Z -> settled (zs (st_status (p_bounds s)) i)) by exact SB.
  assert (SC' : forall i, (0 <= i < st_n (p_cons s))%Z -> settled (zs (st_status (p_cons s)) i)) by exact SC.
  assert (V0 : forall q, (0 <= q < zlen l0)%Z -> dx (zz l0 q) = zn 0 (sp_xFR p' : arr) q /\ dy (zz l0 q) = 0) by (intros q Hq; rewrite <- FRE by exact Hq; apply U0; lia).
  assert (V1 : forall q, (0 <= q < zlen l1)%Z -> dx (zz l1 q) = zn 0 (sp_xFX p' : arr) q /\ dy (zz l1 q) = zn 0 (sp_yFX p' : arr) q) by (intros q Hq; rewrite <- (dir_fx eps zero infty n m Am s l0 l1 k0 k1 I) by exact Hq; apply U1; lia).
  assert (V2 : forall q, (0 <= q < zlen k1)%Z -> dyA (zz k1 q) = zn 0 (sp_yAC p' : arr) q) by (intros q Hq; rewrite <- ACE by exact Hq; apply U2; lia).
  assert (MV : forall M i, matvec (pV s) M dx i = rsum 0 (zlen l0) (fun k => M i (zz l0 k) * zn 0 (sp_xFR p' : arr) k) + rsum 0 (zlen l1) (fun k => M i (zz l1 k) * zn 0 (sp_xFX p' : arr) k)).
  { intros M i. unfold matvec. change (pV s) with (st_n (p_bounds s)). rewrite (st_split _ _ _ Wb SB'). f_equal; apply rsum_ext; intros k Hk; [now rewrite (proj1 (V0 k Hk))|now rewrite (proj1 (V1 k Hk))]. }
  assert (MA : forall i, rsum 0 (pC s) (fun k => Am k i * dyA k) = rsum 0 (zlen k1) (fun k => Am (zz k1 k) i * zn 0 (sp_yAC p' : arr) k)).
  { intros i. change (pC s) with (st_n (p_cons s)). rewrite (st_split _ _ _ Wc SC'). rewrite (rsum_0 0 (zlen k0)).
    - rewrite Rplus_0_l. apply rsum_ext. intros k Hk. now rewrite V2.
    - intros k Hk. destruct (proj1 (wf_in0 _ _ _ Wc (zz k0 k)) (zn_In 0%Z k0 k Hk)) as (A1 & A2). rewrite U3; [ring|exact A1|exact A2]. }
  split.
  - intros i Hi. rewrite MV, MA. destruct (st_covered _ _ _ Wb SB' i Hi) as [(q & Hq & <-)|(q & Hq & <-)].
    + specialize (DF q Hq). unfold hx, dh, da in DF. rewrite (proj2 (V0 q Hq)). split; [lra|].
      destruct (proj1 (wf_in0 _ _ _ Wb (zz l0 q)) (zn_In 0%Z l0 q Hq)) as (_ & A). unfold bst. rewrite A. reflexivity.
    + specialize (DM q Hq). destruct (V1 q Hq) as (W2 & W3). rewrite W3. split; [rewrite DM; ring|]. specialize (DX q Hq).
      destruct (proj1 (wf_in1 _ _ _ Wb (zz l1 q)) (zn_In 0%Z l1 q Hq)) as (_ & A). change (is_active (bst s (zz l1 q)) = true) in A. unfold bB in DX. change (zs (st_status (p_bounds s)) (zz l1 q)) with (bst s (zz l1 q)) in DX.
      rewrite W2, DX. destruct (SB _ Hi) as [X|[X|X]]; rewrite X in A |- *; [discriminate A|reflexivity|reflexivity].
  - intros k Hk. rewrite MV. destruct (st_covered _ _ _ Wc SC' k Hk) as [(q & Hq & <-)|(q & Hq & <-)].
    + destruct (proj1 (wf_in0 _ _ _ Wc (zz k0 q)) (zn_In 0%Z k0 q Hq)) as (_ & A). unfold cst. rewrite A. apply U3; auto.
    + specialize (DA q Hq). unfold ax, da in DA. rewrite DA.
      destruct (proj1 (wf_in1 _ _ _ Wc (zz k1 q)) (zn_In 0%Z k1 q Hq)) as (_ & A). change (is_active (cst s (zz k1 q)) = true) in A. unfold bC. change (zs (st_status (p_cons s)) (zz k1 q)) with (cst s (zz k1 q)).
      destruct (SC _ Hk) as [X|[X|X]]; rewrite X in A |- *; [discriminate A|reflexivity|reflexivity].
Qed.
End Dir.

(** ** The test *)
Lemma in_order_scr n m Am Hm (s : qp N) c : in_order n m Am Hm s -> cwf eps zero infty n m c -> in_order n m Am Hm (scr_to (N := N) c s).
Proof using.
  intros (l0 & l1 & k0 & k1 & I & HD & CW & RX) C. exists l0, l1, k0, k1. split; [|split; [exact HD|split; [destruct C; constructor; assumption|exact RX]]].
  destruct I as [W F Y A T]. constructor; [destruct W; constructor; assumption|destruct F; constructor; assumption|exact Y|exact A|exact T].
Qed.
(** x' H x is the multiplier of what leaves, times its shift *)
Lemma curvature_is n m Am Hm (s : qp N) (d : pshift (N := N)) b0 i0 dx dy dyA sg : pV s = n -> pC s = m -> (0 <= n)%Z -> (0 <= m)%Z -> in_range n m b0 i0 -> is_on (ws s b0 i0) -> all_settled n m s ->
  (forall j, (0 <= j < n)%Z -> zn 0 (sh_g d : arr) j = 0) ->
  (forall j, (0 <= j < n)%Z -> b0 = true -> zn 0 (sh_lb d : arr) j = (if (j =? i0)%Z then sg else 0) /\ zn 0 (sh_ub d : arr) j = (if (j =? i0)%Z then sg else 0)) ->
  (forall k, (0 <= k < m)%Z -> zn 0 (sh_lbA d : arr) k = (if negb b0 && (k =? i0)%Z then sg else 0) /\ zn 0 (sh_ubA d : arr) k = (if negb b0 && (k =? i0)%Z then sg else 0)) ->
  linearisedP Am Hm s d false (negb b0) dx dy dyA ->
  quad n Hm dx = sg * (if b0 then dy i0 else dyA i0) /\ rsum 0 n (fun j => row Am b0 i0 j * dx j) = sg /\
  (forall b i, in_range n m b i -> is_on (ws s b i) -> is_at b0 i0 b i = false -> rsum 0 n (fun j => row Am b i j * dx j) = 0).
Proof using.
  intros EV EC Hn Hm0 RG ON SE GZ DB DC (L1 & L2). rewrite EV, EC in *.
  assert (RB : forall i, (0 <= i < n)%Z -> rsum 0 n (fun j => row Am true i j * dx j) = dx i).
  { intros i Hi. cbn [row]. rewrite (rsum_delta 0 n i); [rewrite Z.eqb_refl; ring|exact Hi|]. intros q Hq NE. destruct (Z.eqb_spec q i); [contradiction|ring]. }
  assert (VB : forall i, (0 <= i < n)%Z -> is_on (wsB s i) -> dx i = if b0 && (i =? i0)%Z then sg else 0).
  { intros i Hi O. destruct (L1 i Hi) as (_ & M). change (bst s i) with (wsB s i) in M. destruct O as [O|O]; rewrite O in M; rewrite M; destruct b0; cbn [negb andb]; try reflexivity; apply (DB i Hi eq_refl). }
  assert (VC : forall k, (0 <= k < m)%Z -> is_on (wsC s k) -> matvec n Am dx k = if negb b0 && (k =? i0)%Z then sg else 0).
  { intros k Hk O. pose proof (L2 k Hk) as M. change (cst s k) with (wsC s k) in M. destruct O as [O|O]; rewrite O in M; rewrite M; apply (DC k Hk). }
  split; [|split].
  - assert (Q : quad n Hm dx = rsum 0 n (fun i => dx i * dy i) + rsum 0 m (fun k => matvec n Am dx k * dyA k)).
    { unfold quad. rewrite (rsum_ext 0 n _ (fun i => dx i * dy i + dx i * rsum 0 m (fun k => Am k i * dyA k))).
      - rewrite rsum_plus. f_equal. rewrite (rsum_ext 0 n _ (fun i => rsum 0 m (fun k => dx i * (Am k i * dyA k)))) by (intros; now rewrite rsum_scal).
        rewrite rsum_swap. apply rsum_ext. intros k Hk. unfold matvec. rewrite <- rsum_scal_r. apply rsum_ext. intros; ring.
      - intros i Hi. destruct (L1 i Hi) as (E & _). rewrite GZ, Rplus_0_r in E by exact Hi. rewrite <- Rmult_plus_distr_l, <- E. unfold matvec. rewrite <- rsum_scal. apply rsum_ext. intros; ring. }
    rewrite Q. clear Q.
    assert (S1 : rsum 0 n (fun i => dx i * dy i) = if b0 then sg * dy i0 else 0).
    { assert (T : forall i, (0 <= i < n)%Z -> b0 && (i =? i0)%Z = false -> dx i * dy i = 0).
      { intros i Hi NE. destruct (SE true i Hi) as [O|O]; [destruct (L1 i Hi) as (_ & M); cbn [PropEnter.ws] in O; change (bst s i) with (wsB s i) in M; rewrite O in M; rewrite M; ring|]. rewrite (VB i Hi O), NE. ring. }
      destruct b0; cbn [andb] in *; [|apply rsum_0; intros i Hi; now apply T].
      rewrite (rsum_delta 0 n i0); [|exact RG|intros q Hq NE; apply T; [exact Hq|now apply Z.eqb_neq]]. rewrite (VB i0 RG ON), Z.eqb_refl. reflexivity. }
    assert (S2 : rsum 0 m (fun k => matvec n Am dx k * dyA k) = if b0 then 0 else sg * dyA i0).
    { assert (T : forall k, (0 <= k < m)%Z -> negb b0 && (k =? i0)%Z = false -> matvec n Am dx k * dyA k = 0).
      { intros k Hk NE. destruct (SE false k Hk) as [O|O]; [pose proof (L2 k Hk) as M; cbn [PropEnter.ws] in O; change (cst s k) with (wsC s k) in M; rewrite O in M; rewrite M; ring|]. rewrite (VC k Hk O), NE. ring. }
      destruct b0; cbn [andb negb] in *; [apply rsum_0; intros i Hi; now apply T|].
      rewrite (rsum_delta 0 m i0); [|exact RG|intros q Hq NE; apply T; [exact Hq|now apply Z.eqb_neq]]. rewrite (VC i0 RG ON), Z.eqb_refl. reflexivity. }
    rewrite S1, S2. destruct b0; ring.
  - destruct b0; [rewrite RB by exact RG; rewrite (VB i0 RG ON), Z.eqb_refl; reflexivity|].
    cbn [row]. transitivity (matvec n Am dx i0); [reflexivity|]. rewrite (VC i0 RG ON), Z.eqb_refl. reflexivity.
  - intros [|] i Hi O NA; unfold is_at in NA.
    + rewrite RB, (VB i Hi O) by exact Hi. destruct b0; [cbn [Bool.eqb andb] in NA; cbn [andb]; now rewrite NA|reflexivity].
    + cbn [row]. transitivity (matvec n Am dx i); [reflexivity|]. rewrite (VC i Hi O). destruct b0; [reflexivity|cbn [Bool.eqb andb] in NA; cbn [andb negb]; now rewrite NA].
Qed.

Lemma wide n Am b i (dx : Z -> R) S : (0 <= n)%Z -> 0 <= S -> (forall j, (0 <= j < n)%Z -> Rabs (dx j) <= S) -> Rabs (rsum 0 n (fun j => row Am b i j * dx j)) <= rowsum n Am b i * S.
Proof using.
  intros Hn HS B. unfold rowsum. eapply Rle_trans; [apply lsum_abs|]. rewrite <- rsum_scal_r. apply lsum_le. intros j Hj. apply In_zseq in Hj. rewrite Rabs_mult. apply Rmult_le_compat_l; [apply Rabs_pos|now apply B].
Qed.

Theorem C74_test mu n m Am Hm (s : qp N) b0 i0 : in_order n m Am Hm s -> all_settled n m s -> solidT s -> q_htype (p_b s) <> HST_ZERO -> (0 <= o_numRefinementSteps (p_opts s))%Z ->
  in_range n m b0 i0 -> is_on (ws s b0 i0) -> curved_by mu n m Am Hm s b0 i0 -> 0 <= o_epsNZCTests (p_opts s) -> o_epsNZCTests (p_opts s) * rowsum n Am b0 i0 <= mu ->
  exists c, cwf eps zero infty n m c /\ ensureNonzeroCurvature (N := N) junk b0 i0 s = Ok (SUCCESSFUL_RETURN, None, scr_to (N := N) c s).
Proof using zero_0 eps_pos J.
  intros (l0 & l1 & k0 & k1 & I & HD & CW & RX) SE ST HZ NR RG ON CV E0 EM.
  destruct (br_dims eps zero infty n m Am s l0 l1 k0 k1 I) as (En & Em & EF & EC & EX & ND). pose proof (pi_w _ _ _ _ _ _ _ _ _ _ _ I) as W. pose proof (pw_b _ _ _ _ _ _ _ _ _ _ _ W) as Wb. pose proof (pw_c _ _ _ _ _ _ _ _ _ _ _ W) as Wc.
  assert (Hn : (0 <= n)%Z) by (rewrite <- En; exact (wf_n _ _ _ Wb)). assert (Hm0 : (0 <= m)%Z) by (rewrite <- Em; exact (wf_n _ _ _ Wc)).
  assert (LJ : forall z, (0 <= z)%Z -> zlen (junk z) = z) by exact J. pose proof (zlen_nonneg l0). pose proof (zlen_nonneg l1). pose proof (zlen_nonneg k1).
  set (dim := if (n <? m)%Z then m else n). assert (DM : (n <= dim)%Z /\ (m <= dim)%Z) by (unfold dim; destruct (Z.ltb_spec n m); lia).
  set (K1 := if b0 then dim else n). set (K2 := if b0 then n else m). assert (HK : (n <= K1)%Z /\ (0 <= K2)%Z) by (unfold K1, K2; destruct b0; lia).
  assert (ZE : forall K, (0 <= K)%Z -> exists b : arr, for_up 0 K (fun i (b : arr) => wr b i (n0 (N := N))) (junk K) = Ok b /\ zlen b = K /\ forall i, (0 <= i < K)%Z -> zn 0 b i = 0).
  { intros K HK0. apply wp_inv. apply (wp_fill (0:R) (fun _ => 0)); [rewrite LJ; lia|intros i b Hi Lb; rewrite LJ in Lb by lia; apply wr_ok; rcar; lia|]. intros b Lb Vb _. rewrite LJ in Lb by lia. auto. }
  destruct (ZE K1 ltac:(lia)) as (nul & N1 & Ln & Vn). destruct (ZE K2 ltac:(lia)) as (ek & N2 & Le & Ve). 
  assert (GS : st_getStatus (if b0 then p_bounds s else p_cons s) i0 = Ok (ws s b0 i0)).
  { unfold in_range in RG. destruct b0; [apply (getStatus_ok _ _ _ _ Wb)|apply (getStatus_ok _ _ _ _ Wc)]; [change (st_n (p_bounds s)) with (pV s)|change (st_n (p_cons s)) with (pC s)]; lia. }
  set (sg := if is_sts (ws s b0 i0) ST_LOWER then n1 (N := N) else nm1 (N := N)).
  assert (RK : (0 <= i0 < K2)%Z) by (unfold K2; unfold in_range in RG; destruct b0; exact RG). set (e1 := zupd ek i0 sg). assert (E1 : wr ek i0 sg = Ok e1) by (apply wr_ok; rcar; lia).
  assert (Le1 : zlen e1 = K2) by (unfold e1; rewrite zlen_zupd; exact Le).
  assert (V1 : forall j, (0 <= j < K2)%Z -> zn 0 e1 j = if (j =? i0)%Z then sg else 0).
  { intros j Hj. unfold e1. destruct (Z.eqb_spec j i0) as [->|NE]; [apply zn_zupd_eq; rcar; lia|rewrite zn_zupd_ne by lia; now apply Ve]. }
  set (d := if b0 then mkS (N := N) nul nul nul e1 e1 else mkS (N := N) nul e1 e1 nul nul).
  assert (DW : shwf eps zero infty n m d).
  { unfold d. unfold K1 in *. unfold K2 in *. destruct b0; constructor; cbn; lia. }
  set (p0 := mkP (N := N) (junk (zlen l1)) (junk (zlen l0)) (junk (zlen k1)) (junk (zlen l1))).
  destruct (dir_room n m Am Hm s l0 l1 k0 k1 I (proj1 HD) RX d false (negb b0) p0 CW DW NR) as (p & c & E & CW' & (P1 & P2 & P3 & P4) & (dx & dy & dyA & UP) & LP); try (unfold p0; cbn; rewrite LJ by lia; lia); try assumption.
  { intros i Hi. rewrite En in Hi. exact (SE true i Hi). } { intros i Hi. rewrite Em in Hi. exact (SE false i Hi). }
  unfold p0 in P1, P2, P3, P4. cbn [sp_xFX sp_xFR sp_yAC sp_yFX] in P1, P2, P3, P4. rewrite LJ in P1, P2, P3, P4 by lia.
  specialize (LP dx dy dyA UP). destruct UP as (U0 & U1 & U2 & _).
  destruct (curvature_is n m Am Hm s d b0 i0 dx dy dyA sg En Em Hn Hm0 RG ON SE) as (QD & RS & RO).
  { intros j Hj. unfold d. destruct b0; cbn [sh_g]; apply Vn; lia. }
  { intros j Hj ->. unfold d, K2 in *. cbn [sh_lb sh_ub]. rewrite V1 by exact Hj. auto. }
  { intros j Hj. unfold d, K1, K2 in *. destruct b0; cbn [sh_lbA sh_ubA negb andb]; [rewrite Vn by lia; auto|rewrite V1 by exact Hj; auto]. }
  { exact LP. }
  destruct (maxAbs_ok eps zero infty (zlen k1) (sp_yAC p) (n0 (N := N)) ltac:(rcar; lia)) as (w1 & M1 & W1 & W1a & W1b).
  destruct (maxAbs_ok eps zero infty (zlen l1) (sp_yFX p) w1 ltac:(rcar; lia)) as (w2 & M2 & W2 & W2a & W2b).
  destruct (maxAbs_ok eps zero infty (zlen l1) (sp_xFX p) (n0 (N := N)) ltac:(rcar; lia)) as (z1 & M3 & Z1 & Z1a & Z1b).
  destruct (maxAbs_ok eps zero infty (zlen l0) (sp_xFR p) z1 ltac:(rcar; lia)) as (z2 & M4 & Z2 & Z2a & Z2b).
  change (n0 (N := N)) with 0 in W1, W1b, Z1, Z1b.
  assert (FRE : forall i, (0 <= i < zlen l0)%Z -> fr s i = zz l0 i) by (intros i Hi; eapply br_fr; eauto).
  assert (ACE : forall i, (0 <= i < zlen k1)%Z -> ac s i = zz k1 i) by (intros i Hi; eapply br_ac; eauto).
  assert (FXE : forall i, (0 <= i < zlen l1)%Z -> fx s i = zz l1 i) by (intros i Hi; eapply dir_fx; eauto).
  assert (SB : forall i, (0 <= i < st_n (p_bounds s))%Z -> settled (zs (st_status (p_bounds s)) i)) by (intros i Hi; apply (SE true i); change (st_n (p_bounds s)) with (pV s) in Hi; unfold in_range; lia).
  assert (SC : forall i, (0 <= i < st_n (p_cons s))%Z -> settled (zs (st_status (p_cons s)) i)) by (intros i Hi; apply (SE false i); change (st_n (p_cons s)) with (pC s) in Hi; unfold in_range; lia).
  (* the norms *)
  assert (BX : forall j, (0 <= j < n)%Z -> Rabs (dx j) <= z2).
  { intros j Hj. destruct (st_covered _ _ _ Wb SB j) as [(q & Hq & <-)|(q & Hq & <-)]; [change (st_n (p_bounds s)) with (pV s); lia| |].
    - rewrite <- FRE by exact Hq. destruct (U0 q ltac:(lia)) as (-> & _). exact (Z2a q Hq).
    - rewrite <- FXE by exact Hq. destruct (U1 q ltac:(lia)) as (-> & _). eapply Rle_trans; [exact (Z1a q Hq)|exact Z2]. }
  assert (ZA : z2 = 0 \/ exists j, (0 <= j < n)%Z /\ z2 = Rabs (dx j)).
  { destruct Z2b as [->|(i & Hi & -> & _)].
    - destruct Z1b as [->|(i & Hi & -> & _)]; [now left|]. right. exists (fx s i). destruct (U1 i ltac:(lia)) as (-> & _). split; [|reflexivity]. rewrite FXE by exact Hi. pose proof (proj1 (wf_in1 _ _ _ Wb (zz l1 i)) (zn_In 0%Z l1 i Hi)) as (R0 & _). change (st_n (p_bounds s)) with (pV s) in R0. lia.
    - right. exists (fr s i). destruct (U0 i ltac:(lia)) as (-> & _). split; [|reflexivity]. rewrite FRE by exact Hi. pose proof (proj1 (wf_in0 _ _ _ Wb (zz l0 i)) (zn_In 0%Z l0 i Hi)) as (R0 & _). change (st_n (p_bounds s)) with (pV s) in R0. lia. }
  assert (ZN : 0 <= z2) by (eapply Rle_trans; [exact Z1|exact Z2]).
  assert (SA : Rabs sg = 1) by (unfold sg; destruct (is_sts _ _); rnum; [apply Rabs_R1|rewrite Rabs_Ropp; apply Rabs_R1]).
  assert (YM : Rabs (if b0 then dy i0 else dyA i0) <= w2).
  { unfold in_range in RG. assert (A : is_active (ws s b0 i0) = true) by (destruct ON as [X|X]; rewrite X; reflexivity). destruct b0; cbn [PropEnter.ws] in A.
    - destruct (st_covered _ _ _ Wb SB i0) as [(q & Hq & Eq)|(q & Hq & Eq)]; [change (st_n (p_bounds s)) with (pV s); lia| |].
      + exfalso. pose proof (proj1 (wf_in0 _ _ _ Wb (zz l0 q)) (zn_In 0%Z l0 q Hq)) as (_ & R0). rewrite Eq in R0. unfold PropAuxP.wsB in A. rewrite R0 in A. discriminate A.
      + rewrite <- Eq, <- FXE by exact Hq. destruct (U1 q ltac:(lia)) as (_ & ->). exact (W2a q Hq).
    - destruct (st_covered _ _ _ Wc SC i0) as [(q & Hq & Eq)|(q & Hq & Eq)]; [change (st_n (p_cons s)) with (pC s); lia| |].
      + exfalso. pose proof (proj1 (wf_in0 _ _ _ Wc (zz k0 q)) (zn_In 0%Z k0 q Hq)) as (_ & R0). rewrite Eq in R0. unfold PropAuxP.wsC in A. rewrite R0 in A. discriminate A.
      + rewrite <- Eq, <- ACE by exact Hq. rewrite (U2 q ltac:(lia)). eapply Rle_trans; [exact (W1a q Hq)|exact W2]. }
  (* the inequality *)
  pose proof (wide n Am b0 i0 dx z2 Hn ZN BX) as WD. rewrite RS, SA in WD.
  assert (QW : quad n Hm dx <= w2).
  { rewrite QD. eapply Rle_trans; [apply Rle_abs|]. rewrite Rabs_mult, SA, Rmult_1_l. exact YM. }
  assert (PZ : 0 < z2) by (destruct (Rle_lt_or_eq_dec _ _ ZN) as [|<-]; [assumption|rewrite Rmult_0_r in WD; lra]).
  assert (RE : released n m Am s b0 i0 dx).
  { split; [|exact RO]. destruct ZA as [Z0|(j & Hj & Z0)]; [lra|]. exists j. split; [exact Hj|]. intros X. rewrite X, Rabs_R0 in Z0. lra. }
  assert (LO : o_epsNZCTests (p_opts s) * z2 <= w2).
  { destruct ZA as [Z0|(j & Hj & Z0)]; [lra|]. pose proof (CV dx RE j Hj) as C. assert (Z3 : dx j * dx j = z2 * z2) by (rewrite Z0; apply (Rsqr_abs (dx j))). rewrite Z3 in C.
    set (e := o_epsNZCTests (p_opts s) : R) in *. set (a := rowsum n Am b0 i0) in *. apply Rle_trans with (mu * (z2 * z2)); [|lra].
    apply Rle_trans with (e * a * (z2 * z2)); [|apply Rmult_le_compat_r; [nra|exact EM]]. replace (e * a * (z2 * z2)) with (e * z2 * (a * z2)) by ring.
    assert (0 <= e * z2) by (apply Rmult_le_pos; [exact E0|exact ZN]). nra. }
  assert (B : Rltb w2 (o_epsNZCTests (p_opts s) * z2) = false) by (destruct (Rltb_spec w2 (o_epsNZCTests (p_opts s) * z2)) as [B|B]; [exfalso; apply (Rlt_irrefl w2); eapply Rlt_le_trans; [exact B|exact LO]|reflexivity]).
  exists c. split; [exact CW'|].
  apply (nzc_path (N := N) junk b0 i0 s K1 K2 nul ek e1 (ws s b0 i0) SUCCESSFUL_RETURN p (scr_to (N := N) c s) w1 w2 z1 z2).
  - unfold K1, dim. rewrite En, Em. reflexivity.
  - unfold K2. rewrite En, Em. reflexivity.
  - exact N1.
  - exact N2.
  - exact GS.
  - exact E1.
  - rewrite EX, EF, EC. exact E.
  - change (pAC (scr_to (N := N) c s)) with (pAC s). rewrite EC. exact M1.
  - change (pFX (scr_to (N := N) c s)) with (pFX s). rewrite EX. exact M2.
  - change (pFX (scr_to (N := N) c s)) with (pFX s). rewrite EX. exact M3.
  - change (pFR (scr_to (N := N) c s)) with (pFR s). rewrite EF. exact M4.
  - exact B.
Qed.

(** ** Removal with the test switched on *)
Lemma check_scr_B i c (s : qp N) : removeBound_check (N := N) i (scr_to (N := N) c s) = removeBound_check (N := N) i s.
Proof using. reflexivity. Qed.
Lemma check_scr_C i c (s : qp N) : removeConstraint_check (N := N) i (scr_to (N := N) c s) = removeConstraint_check (N := N) i s.
Proof using. reflexivity. Qed.
Lemma remove_B i c (s : qp N) : ensureNonzeroCurvature (N := N) junk true i s = Ok (SUCCESSFUL_RETURN, None, scr_to (N := N) c s) -> removeBound_check (N := N) i s = Ok None ->
  p_removeBound (N := N) junk i true true true s = p_removeBound (N := N) junk i true true false (scr_to (N := N) c s).
Proof using. intros E C. unfold p_removeBound. rewrite check_scr_B, C. cbn [bind]. rewrite E. reflexivity. Qed.
Lemma remove_C i k c (s : qp N) : ensureNonzeroCurvature (N := N) junk false i s = Ok (SUCCESSFUL_RETURN, None, scr_to (N := N) c s) -> removeConstraint_check (N := N) i s = Ok (inr k) ->
  p_removeConstraint (N := N) junk i true true true s = p_removeConstraint (N := N) junk i true true false (scr_to (N := N) c s).
Proof using. intros E C. unfold p_removeConstraint. rewrite check_scr_C, C. cbn [bind]. rewrite E. reflexivity. Qed.

Lemma checks n m Am Hm (s : qp N) b0 i0 : in_order n m Am Hm s -> p_noUpdate s = false -> in_range n m b0 i0 -> is_on (ws s b0 i0) ->
  if b0 then removeBound_check (N := N) i0 s = Ok None else exists k, removeConstraint_check (N := N) i0 s = Ok (inr k).
Proof using.
  intros (l0 & l1 & k0 & k1 & I & HD & CW & RX) NU RG ON. pose proof I as [W F Ly FA TQ]. pose proof (pw_b _ _ _ _ _ _ _ _ _ _ _ W) as Wb. pose proof (pw_c _ _ _ _ _ _ _ _ _ _ _ W) as Wc.
  destruct (br_dims eps zero infty n m Am s l0 l1 k0 k1 I) as (En & Em & EF & EC & EX & ND). unfold in_range in RG. destruct b0; cbn [PropEnter.ws] in ON.
  - assert (AC : is_active (zs (st_status (p_bounds s)) i0) = true) by (unfold PropAuxP.wsB in ON; destruct ON as [E|E]; rewrite E; reflexivity).
    assert (Hr : (0 <= i0 < st_n (p_bounds s))%Z) by (change (st_n (p_bounds s)) with (pV s); lia).
    unfold removeBound_check. rewrite (getStatus_ok _ _ _ _ Wb Hr). cbn [bind].
    assert (NI : is_sts (zs (st_status (p_bounds s)) i0) ST_INACTIVE = false) by (destruct (zs (st_status (p_bounds s)) i0); try reflexivity; discriminate AC). rewrite NI, NU. reflexivity.
  - assert (AC : is_active (zs (st_status (p_cons s)) i0) = true) by (unfold PropAuxP.wsC in ON; destruct ON as [E|E]; rewrite E; reflexivity).
    assert (Hr : (0 <= i0 < st_n (p_cons s))%Z) by (change (st_n (p_cons s)) with (pC s); lia). assert (Hin : In i0 k1) by (apply (wf_in1 _ _ _ Wc); auto).
    unfold removeConstraint_check. rewrite NU. assert (P0 : (0 <= spec_pos k1 i0)%Z) by now apply spec_pos_nonneg_In.
    rewrite (getIndex_spec _ k1) by (solve [exact (wf_act _ _ _ Wc)|exists i0; split; [exact Hin|lia]]). cbn [bind]. rewrite (getStatus_ok _ _ _ _ Wc Hr). cbn [bind].
    assert (NI : is_sts (zs (st_status (p_cons s)) i0) ST_INACTIVE = false) by (destruct (zs (st_status (p_cons s)) i0); try reflexivity; discriminate AC). rewrite NI.
    pose proof (spec_pos_range k1 i0) as SR. rewrite EC. destruct (Z.ltb_spec (spec_pos k1 i0) 0); [lia|]. destruct (Z.leb_spec (zlen k1) (spec_pos k1 i0)); [lia|]. cbn [orb bind]. eauto.
Qed.

(** with enough curvature the removal succeeds, and it is the one of C72 *)
Theorem C74_leaving mu n m Am Hm (s : qp N) (k : block (N := N)) : in_order n m Am Hm s -> p_noUpdate s = false -> o_enableFlippingBounds (p_opts s) = false ->
  all_settled n m s -> solidT s -> q_htype (p_b s) <> HST_ZERO -> (0 <= o_numRefinementSteps (p_opts s))%Z ->
  bk_st k = ST_INACTIVE -> in_range n m (bk_isB k) (bk_idx k) -> is_on (ws s (bk_isB k) (bk_idx k)) ->
  0 < mu -> curved_by mu n m Am Hm s (bk_isB k) (bk_idx k) -> 0 <= o_epsNZCTests (p_opts s) -> o_epsNZCTests (p_opts s) * rowsum n Am (bk_isB k) (bk_idx k) <= mu ->
  exists s', p_changeActiveSet (N := N) junk k s = Ok (SUCCESSFUL_RETURN, s') /\
    in_order n m Am Hm s' /\ kept s s' /\ p_opts s' = p_opts s /\ q_status (p_b s') = q_status (p_b s) /\ left_out n m s s' (bk_isB k) (bk_idx k).
Proof using zero_0 eps_pos J.
  intros IO NU FO SE ST HZ NR EI RG ON MP CV E0 EM.
  assert (CX : convex_without n m Am Hm s (bk_isB k) (bk_idx k)).
  { intros v RE. destruct (proj1 RE) as (j & Hj & NZ). eapply Rlt_le_trans; [|exact (CV v RE j Hj)]. apply Rmult_lt_0_compat; [exact MP|]. exact (Rsqr_pos_lt (v j) NZ). }
  destruct (o_enableNZCTests (p_opts s)) eqn:NZ.
  2:{ destruct (C72_leaving eps zero infty zero_0 eps_pos junk J n m Am Hm s k IO NU FO NZ EI RG ON) as (r & s' & E & [(-> & R)|(_ & _ & R)]); [exists s'; auto|contradiction]. }
  destruct (C74_test mu n m Am Hm s _ _ IO SE ST HZ NR RG ON CV E0 EM) as (c & CWc & ET). set (s1 := scr_to (N := N) c s) in *.
  assert (IO1 : in_order n m Am Hm s1) by (apply in_order_scr; assumption).
  pose proof (checks n m Am Hm s _ _ IO NU RG ON) as CK.
  unfold p_changeActiveSet. rewrite EI, NZ. cbv zeta.
  assert (ZU : forall (y : arr) p j, zlen y = (n + m)%Z -> (0 <= p < n + m)%Z -> (0 <= j < n + m)%Z -> zn 0 (zupd y p 0) j = if (j =? p)%Z then 0 else zn 0 y j).
  { intros y p j Ly Hp Hj. destruct (Z.eqb_spec j p) as [->|NE]; [apply zn_zupd_eq; lia|apply zn_zupd_ne; lia]. }
  assert (Z0 : forall (s' : qp N) p, in_order n m Am Hm s' -> kept s1 s' -> p_opts s' = p_opts s1 -> q_y (p_b s') = q_y (p_b s1) -> q_status (p_b s') = q_status (p_b s1) ->
    statuses s1 s' (fun b j => if is_at (bk_isB k) (bk_idx k) b j then ST_INACTIVE else ws s1 b j) -> p = posn n (bk_isB k) (bk_idx k) -> (0 <= p < n + m)%Z ->
    exists s2, (y <- wr (q_y (p_b s')) p (n0 (N := N)) ;; Ok (SUCCESSFUL_RETURN, up_b (N := N) (set_q_y (N := N) y) s')) = Ok (SUCCESSFUL_RETURN, s2) /\
      in_order n m Am Hm s2 /\ kept s s2 /\ p_opts s2 = p_opts s /\ q_status (p_b s2) = q_status (p_b s) /\ left_out n m s s2 (bk_isB k) (bk_idx k)).
  { intros s' p IO' KP EO EY ES SS -> Hp. assert (Ly : zlen (q_y (p_b s')) = (n + m)%Z) by (destruct IO' as (l0 & l1 & k0 & k1 & I & _); apply I).
    rcar. rewrite wr_ok by (rcar; lia). cbn [bind]. eexists. split; [reflexivity|]. split; [apply set_in_order; [rewrite zlen_zupd; exact Ly|exact IO']|]. split; [exact KP|]. split; [exact EO|]. split; [exact ES|].
    split; [exact SS|]. intros j Hj. etransitivity; [exact (ZU (q_y (p_b s')) _ j Ly Hp Hj)|]. unfold PropAuxP.yB. rewrite EY. reflexivity. }
  assert (Hn : (0 <= n)%Z /\ (0 <= m)%Z).
  { destruct IO as (l0 & l1 & k0 & k1 & I & _). destruct (br_dims eps zero infty n m Am s l0 l1 k0 k1 I) as (En & Em & _). pose proof (pi_w _ _ _ _ _ _ _ _ _ _ _ I) as W. split; [rewrite <- En; exact (wf_n _ _ _ (pw_b _ _ _ _ _ _ _ _ _ _ _ W))|rewrite <- Em; exact (wf_n _ _ _ (pw_c _ _ _ _ _ _ _ _ _ _ _ W))]. }
  unfold in_range in RG. destruct (bk_isB k) eqn:Eb.
  - rewrite (remove_B _ _ _ ET CK). fold s1.
    destruct (wp_inv _ _ (leave_B eps zero infty zero_0 eps_pos junk J n m Am Hm s1 (bk_idx k) IO1 NU FO RG ON)) as ((r, s') & E & K). rewrite E. cbn [bind].
    destruct K as [(-> & IO' & KP & EO & EY & ES & SS)|(Nr & P & CX')]; [|contradiction].
    change (negb (SUCCESSFUL_RETURN =r? SUCCESSFUL_RETURN)) with false. cbv iota. destruct (Z0 s' (bk_idx k) IO' KP EO EY ES SS eq_refl ltac:(lia)) as (s2 & E2 & R). rewrite E2. exists s2. auto.
  - destruct CK as (kk & CK). rewrite (remove_C _ _ _ _ ET CK). fold s1.
    destruct (wp_inv _ _ (leave_C eps zero infty zero_0 eps_pos junk J n m Am Hm s1 (bk_idx k) IO1 NU FO RG ON)) as ((r, s') & E & K). rewrite E. cbn [bind].
    destruct K as [(-> & IO' & KP & EO & EY & ES & SS)|(Nr & P & CX')]; [|contradiction].
    change (negb (SUCCESSFUL_RETURN =r? SUCCESSFUL_RETURN)) with false. cbv iota. assert (EV : pV s' = n) by (destruct IO' as (l0 & l1 & k0 & k1 & I & _); apply I). rewrite EV.
    destruct (Z0 s' (n + bk_idx k)%Z IO' KP EO EY ES SS eq_refl ltac:(lia)) as (s2 & E2 & R). rewrite E2. exists s2. auto.
Qed.
End Curv.
Print Assumptions C74_test.
Print Assumptions C74_leaving.

(** ** Example: the hypotheses of [C74_test] and [C74_leaving] are met, the test switched on *)
Definition cu_opts : options tqN := set_o_enableNZCTests true (set_o_enableFlippingBounds false optDefault).
Example C74_ex : exists (s : qp tqN) (k : block (N := tqN)), PropIter.in_order tq_eps 0 tq_inf 2 1 tq_Am tq_Hm s /\ p_noUpdate s = false /\ o_enableFlippingBounds (p_opts s) = false /\ o_enableNZCTests (p_opts s) = true /\
  all_settled tq_eps 0 tq_inf 2 1 s /\ solidT tq_eps 0 tq_inf s /\ q_htype (p_b s) <> HST_ZERO /\ (0 <= o_numRefinementSteps (p_opts s))%Z /\
  bk_st k = ST_INACTIVE /\ in_range 2 1 (bk_isB k) (bk_idx k) /\ is_on (ws tq_eps 0 tq_inf s (bk_isB k) (bk_idx k)) /\
  curved_by tq_eps 0 tq_inf 1 2 1 tq_Am tq_Hm s (bk_isB k) (bk_idx k) /\ 0 <= o_epsNZCTests (p_opts s) /\ o_epsNZCTests (p_opts s) * rowsum 2 tq_Am (bk_isB k) (bk_idx k) <= 1.
Proof.
  destruct (C47_ready tq_eps 0 tq_inf tq_junk eq_refl tq_junk_ok 2 1 HST_UNKNOWN cu_opts tq_H [0; 0] tq_A None None None None) as (s & E & RD & V & C & O & HT & FX & AC & _ & IB & IC); try (exact I || lia || reflexivity || discriminate).
  { intros i j Hi Hj. assert (i = 0 \/ i = 1)%Z as [->| ->] by lia; assert (j = 0 \/ j = 1)%Z as [->| ->] by lia; reflexivity. }
  destruct (C48_first_factorisation tq_eps 0 tq_inf tq_junk eq_refl tq_eps_pos tq_junk_ok 2 1 tq_Am tq_Hm s RD tq_posdef) as (s0 & s1 & E0 & L0 & E1 & X1 & O1 & V1 & C1 & _ & K1 & B1 & T1); [unfold plainH, is_hst; rewrite HT; reflexivity|].
  assert (GS : forall (b : subjectTo) i, st_getStatus b i = Ok ST_INACTIVE -> (0 <= i < st_n b)%Z -> zs (st_status b) i = ST_INACTIVE).
  { intros b i Eg' Hi. unfold st_getStatus in Eg'. destruct (Z.leb_spec 0 i); [|lia]. destruct (Z.ltb_spec i (st_n b)); [|lia]. cbn [andb] in Eg'. apply rd_inv in Eg' as (_ & Eg'). apply Eg'. }
  pose proof (exec_in_order tq_eps 0 tq_inf eq_refl tq_eps_pos tq_junk tq_junk_ok 2 1 tq_Am tq_Hm s s0 [OChol] s1 RD E0 X1) as IO.
  apply (in_order_relabel tq_eps 0 tq_inf 2 1 tq_Am tq_Hm s1 QPS_PERFORMINGHOMOTOPY) in IO. set (s2 := up_b (N := tqN) (set_q_status (N := tqN) QPS_PERFORMINGHOMOTOPY) s1) in IO.
  assert (ST2 : forall b i, in_range 2 1 b i -> ws tq_eps 0 tq_inf s2 b i = ST_INACTIVE).
  { intros [|] i Hi; unfold in_range in Hi; cbn [PropEnter.ws]; [unfold PropAuxP.wsB; change (p_bounds s2) with (p_bounds s1); rewrite B1; apply (GS (p_bounds s)); [apply IB; lia|]; change (st_n (p_bounds s)) with (pV s); lia|].
    unfold PropAuxP.wsC. change (p_cons s2) with (p_cons s1). rewrite K1. apply (GS (p_cons s)); [apply IC; lia|]. change (st_n (p_cons s)) with (pC s). lia. }
  assert (AC2 : pAC s2 = 0%Z) by (unfold pAC; change (p_cons s2) with (p_cons s1); rewrite K1; exact AC).
  destruct IO as (l0 & l1 & k0 & k1 & I & HD & CW & RX). pose proof (Rexact_valid _ _ _ _ _ _ _ _ RX) as RV.
  destruct (br_dims tq_eps 0 tq_inf 2 1 tq_Am s2 l0 l1 k0 k1 I) as (En & Em & EF & EC & EX & ND).
  assert (K10 : k1 = []) by (destruct k1 as [|a q]; [reflexivity|]; rewrite zlen_cons in EC; pose proof (zlen_nonneg q); lia). subst k1.
  pose proof (pw_b _ _ _ _ _ _ _ _ _ _ _ (pi_w _ _ _ _ _ _ _ _ _ _ _ I)) as Wb.
  assert (R0 : in_range 2 1 true 0) by (unfold in_range; lia).
  assert (H0 : In 0%Z l0) by (apply (wf_in0 _ _ _ Wb); split; [change (st_n (p_bounds s2)) with (pV s2); lia|exact (ST2 true 0%Z R0)]).
  assert (IND : exists p, (0 <= p < zlen l0 - zlen (@nil Z))%Z /\ ce 2 (p_Q s2) 0 p <> 0).
  { apply (indep_bound_iff 2 (p_sizeT s2) l0 [] tq_Am (p_Q s2) (p_T s2) ND (pi_tq _ _ _ _ _ _ _ _ _ _ _ I) 0%Z H0). exists (fun _ => 1). split; [intros c []|lra]. }
  destruct (addB_step tq_eps 0 tq_inf eq_refl tq_junk tq_junk_ok 2 1 tq_Am s2 l0 l1 k0 [] 0 ST_LOWER true I H0 eq_refl IND (fun _ => RV)) as (s3 & lp & E3 & PM & I3 & FR & _ & XR).
  pose proof (pc_eq _ _ _ (c_addB (N := tqN) tq_junk 0 ST_LOWER true s2) E3) as CH. cbn [snd] in CH.
  assert (W3 : ws tq_eps 0 tq_inf s3 true 0 = ST_LOWER).
  { apply (chgX_new tq_eps 0 tq_inf true s2 0 ST_LOWER s3 CH (ST2 true 0%Z R0)). apply (wf_in1 _ _ _ (pw_b _ _ _ _ _ _ _ _ _ _ _ (pi_w _ _ _ _ _ _ _ _ _ _ _ I3))). apply in_or_app. right. left. reflexivity. }
  pose proof (chgX_ws tq_eps 0 tq_inf true s2 0 ST_LOWER s3 ltac:(lia) CH W3) as SS.
  destruct (br_dims tq_eps 0 tq_inf 2 1 tq_Am s3 lp _ k0 [] I3) as (_ & _ & _ & EC3 & _).
  exists s3, (mkBlock (N := tqN) 0 0%Z ST_INACTIVE true). cbn [bk_st bk_isB bk_idx].
  assert (O3 : p_opts s3 = cu_opts) by (destruct FR as (_ & _ & -> & _); change (p_opts s2) with (p_opts s1); now rewrite O1, O).
  assert (P3 : plainH (p_b s3) = true) by (rewrite (pframe_plain _ _ _ _ _ FR); change (plainH (p_b s2)) with (plainH (p_b s1)); unfold plainH, is_hst; rewrite T1, HT; reflexivity).
  assert (EP : o_epsNZCTests (p_opts s3) = 3000 * tq_eps) by (rewrite O3; change (Rlit 3 3 * tq_eps = 3000 * tq_eps); change (Rlit 3 3) with (IZR (3 * 10 ^ 3)); reflexivity).
  split; [|split; [|split; [now rewrite O3|split; [now rewrite O3|split; [|split; [|split; [|split; [|split; [reflexivity|split; [exact R0|split; [left; exact W3|split; [|split]]]]]]]]]]]].
  - exists lp, (l1 ++ [0%Z]), k0, []. split; [exact I3|]. split; [exact (pframe_hdata _ _ _ _ _ _ _ FR HD)|]. split; [exact (pframe_cwf _ _ _ _ _ _ _ FR CW)|].
    pose proof (XR eq_refl tq_Hm RX) as X. apply Permutation_length in PM. rewrite app_length in PM. cbn in PM. replace (zlen lp - zlen (@nil Z))%Z with (zlen l0 - zlen (@nil Z) - 1)%Z by (unfold zlen in *; cbn; lia). exact X.
  - unfold p_noUpdate, noUpdate. destruct FR as (_ & _ & _ & _ & -> & _). reflexivity.
  - intros b i Hi. rewrite (SS b i) by (unfold in_range in Hi; destruct b; lia). destruct (is_at true 0 b i); [right; left; reflexivity|left; now apply ST2].
  - intros i Hi. rewrite EC3 in Hi. change (zlen (@nil Z)) with 0%Z in Hi. lia.
  - intros X. unfold plainH, is_hst in P3. rewrite X in P3. discriminate P3.
  - rewrite O3. vm_compute. discriminate.
  - intros v _ j Hj. unfold LinSpec.quad. rewrite !rsum_two. change (tq_Hm 0 0) with 2. change (tq_Hm 0 1) with 1. change (tq_Hm 1 0) with 1. change (tq_Hm 1 1) with 2.
    pose proof (Rle_0_sqr (v 0%Z + v 1%Z)) as Q0. pose proof (Rle_0_sqr (v 0%Z)) as Q1. pose proof (Rle_0_sqr (v 1%Z)) as Q2. unfold Rsqr in *. assert (j = 0 \/ j = 1)%Z as [->| ->] by lia; nra.
  - rewrite EP. pose proof tq_eps_pos. lra.
  - rewrite EP. unfold rowsum. rewrite rsum_two. cbn [row Z.eqb]. rewrite Rabs_R1, Rabs_R0. unfold tq_eps. lra.
Qed.

(** ** C75: the jump made when the curvature is taken for zero *)
Section Jump.
Variables eps zero infty : R.
Notation N := (RNumT eps zero infty).
Notation arr := (list R).
(** The ratio test is right about the distances it is given: a step of the returned length passes none of the
    limits it looks at, and it is the length given or meets the limit that is named. *)
Theorem C75_ratio_partial k (idx : list Z) (num den : arr) epsN epsD t b : (0 <= k <= zlen idx)%Z -> (k <= zlen num)%Z -> (k <= zlen den)%Z -> 0 <= epsN -> 0 <= epsD -> 0 <= t ->
  exists t' b', plainRatioTest (N := N) k idx num den epsN epsD (t, b) = Ok (t', b') /\ 0 <= t' <= t /\
    (forall i, (0 <= i < k)%Z -> epsN < zn 0 num i -> epsD < zn 0 den i -> t' * zn 0 den i <= zn 0 num i) /\
    ((t' = t /\ b' = b) \/ exists i, (0 <= i < k)%Z /\ epsN < zn 0 num i /\ epsD < zn 0 den i /\ t' * zn 0 den i = zn 0 num i /\ b' = zz idx i /\ t' < t).
Proof.
  intros K1 K2 K3 N0 D0 T0. set (P := fun (j : Z) (x : R * Z) => 0 <= fst x <= t /\
    (forall i, (0 <= i < j)%Z -> epsN < zn 0 num i -> epsD < zn 0 den i -> fst x * zn 0 den i <= zn 0 num i) /\
    ((fst x = t /\ snd x = b) \/ exists i, (0 <= i < k)%Z /\ epsN < zn 0 num i /\ epsD < zn 0 den i /\ fst x * zn 0 den i = zn 0 num i /\ snd x = zz idx i /\ fst x < t)).
  destruct (wp_inv (plainRatioTest (N := N) k idx num den epsN epsD (t, b)) (P k)) as ((t' & b') & E & (X1 & X2 & X3)); [|exists t', b'; auto].
  unfold plainRatioTest. apply wp_for_up with (I := P); [lia|split; [cbn [fst]; lra|split; [intros; lia|left; auto]]| |auto].
  intros i [u c] Hi (Y1 & Y2 & Y3). cbn [fst snd] in *. rdx. change (nltb (n := N)) with Rltb.
  destruct (Rltb_spec epsN (zn 0 num i)) as [A|A].
  2:{ cbn [wp]. split; [exact Y1|]. split; [|exact Y3]. intros j Hj B C. cbn [fst]. destruct (Z.eq_dec j i) as [->|]; [lra|]. apply Y2; auto; lia. }
  rdx. change (nltb (n := N)) with Rltb. change (nmul (n := N)) with Rmult.
  destruct (Rltb_spec epsD (zn 0 den i)) as [B|B]; cbn [andb].
  2:{ cbn [wp]. split; [exact Y1|]. split; [|exact Y3]. intros j Hj B' C. cbn [fst]. destruct (Z.eq_dec j i) as [->|]; [lra|]. apply Y2; auto; lia. }
  destruct (Rltb_spec (zn 0 num i) (u * zn 0 den i)) as [C|C].
  2:{ cbn [wp]. split; [exact Y1|]. split; [|exact Y3]. intros j Hj B' C'. cbn [fst]. destruct (Z.eq_dec j i) as [->|]; [lra|]. apply Y2; auto; lia. }
  rewrite (rd_ok 0%Z) by lia. cbn [bind]. change (ndiv (n := N)) with Rdiv. cbn [wp].
  assert (DV : zn 0 num i / zn 0 den i * zn 0 den i = zn 0 num i) by (field; lra).
  assert (LT : zn 0 num i / zn 0 den i < u) by nra. assert (GE : 0 <= zn 0 num i / zn 0 den i) by nra.
  split; [cbn [fst]; lra|]. split; cbn [fst snd].
  - intros j Hj B' C'. destruct (Z.eq_dec j i) as [->|]; [lra|]. specialize (Y2 j ltac:(lia) B' C'). nra.
  - right. exists i. repeat split; auto; try lia; lra.
Qed.
End Jump.
Print Assumptions C75_ratio_partial.
(** two limits ahead, the nearer one is found *)
Example C75_ratio_ex : plainRatioTest (N := QNum) 3 [4; 5; 6]%Z [6; 1; 1]%Q [2; 1; -1]%Q (1 # 1000)%Q (1 # 1000)%Q (100%Q, (-1)%Z) = Ok (1%Q, 5%Z).
Proof. vm_compute. reflexivity. Qed.

(** min 1/2 h x^2 + g x with 0 <= x <= 100000 and the constraint -c <= x <= c, solved for g = 1 and hotstarted
    with g = -1; default options without far bounds.  Status, number of changes, working set and answer. *)
Definition cu_run (nzc : bool) (h c : Q) :=
  let o := set_o_enableNZCTests (N := QNum) nzc (set_o_enableFarBounds (N := QNum) false optDefault) in
  match q_init 1 1 [h]%Q [1]%Q [1]%Q [0]%Q [100000]%Q [- c]%Q [c]%Q 10 o with
  | Ok (SUCCESSFUL_RETURN, _, s) => match p_hotstart (N := QNum) ce_junk nocpu 20 [-1]%Q (Some [0]%Q) (Some [100000]%Q) (Some [- c]%Q) (Some [c]%Q) 10 None None s with
      Ok (r, k, s') => Some (r, k, st_status (p_bounds s'), st_status (p_cons s'), map Qred (q_x (p_b s'))) | _ => None end
  | _ => None
  end.
(** But not every distance it is given belongs to a limit, and in C74 positive definiteness alone is not enough.
    With curvature 1e-13, below 3000 EPS, the direction is taken for flat.  A constraint without limits (c = 1e20) has
    stored distances that performStep never updates (QProblem.cpp:5258-5263), the test takes the 10000 of the auxiliary
    problem (boundRelaxation) for the distance to an upper limit and stops there, and hotstart fails.  It succeeds
    with the test off, with a limit of 1e6 that cannot be reached, and with curvature 1e-12, above the threshold. *)
Theorem C75_refuted :
  cu_run true (1 # 10000000000000) 100000000000000000000 = Some (RET_STEPDIRECTION_FAILED_CHOLESKY, 1%Z, [ST_INACTIVE], [ST_INACTIVE], [10000]%Q) /\
  cu_run false (1 # 10000000000000) 100000000000000000000 = Some (SUCCESSFUL_RETURN, 1%Z, [ST_UPPER], [ST_INACTIVE], [100000]%Q) /\
  cu_run true (1 # 10000000000000) 1000000 = Some (SUCCESSFUL_RETURN, 1%Z, [ST_UPPER], [ST_INACTIVE], [100000]%Q) /\
  cu_run true (1 # 1000000000000) 100000000000000000000 = Some (SUCCESSFUL_RETURN, 2%Z, [ST_UPPER], [ST_INACTIVE], [100000]%Q).
Proof. repeat split; vm_compute; reflexivity. Qed.
Print Assumptions C75_refuted.
