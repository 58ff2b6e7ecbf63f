(** The expensive test for linear independence: the step direction along a row. *)
From Verif Require Import Base Types Num Options Indexlist IndexlistProofs Loops RSum LinSpec SafeLib SubjectTo SubjectToProofs SubjectToProofs2
  Flipper PropFlipper Matrices MatLib MatSafe CsLib PropDense PropSparse PropSparse2 LinAlg PropLinAlg QProblemB QPBSafe QPBSafe2 QPBX1 QPBX2 QPBX3 QPBX4 QPBX5 QPBX7 QProblem QProblem2
  QPX1 QPX2 QPX3 QPX4 QPX5 QPX6 QPX7 QPX8 QPX9 QPX10 QPX11 QPX12 QPX13 QPX14 QPX15 QPX16 QPX18 QPX19 QPX20.
Local Open Scope R_scope.

Lemma some_or_none lo hi (f : Z -> R) : (exists p, (lo <= p < hi)%Z /\ f p <> 0) \/ (forall p, (lo <= p < hi)%Z -> f p = 0).
Proof.
  destruct (Z.le_gt_cases hi lo) as [L|L]; [right; intros; lia|]. assert (X : forall k, (0 <= k)%Z -> (exists p, (lo <= p < lo + k)%Z /\ f p <> 0) \/ (forall p, (lo <= p < lo + k)%Z -> f p = 0)).
  { apply (natlike_ind (fun k => (exists p, (lo <= p < lo + k)%Z /\ f p <> 0) \/ (forall p, (lo <= p < lo + k)%Z -> f p = 0))); [right; intros; lia|].
    intros k Hk [(p & Hp & Np)|A]; [left; exists p; split; [lia|exact Np]|]. destruct (Req_dec (f (lo + k)%Z) 0) as [E|E].
    - right. intros p Hp. destruct (Z.eq_dec p (lo + k)) as [->|]; [exact E|apply A; lia].
    - left. exists (lo + k)%Z. split; [lia|exact E]. }
  specialize (X (hi - lo)%Z ltac:(lia)). now replace (lo + (hi - lo))%Z with hi in X by lia.
Qed.

Section X21.
Variables eps zero infty : R.
Notation N := (RNumT eps zero infty).
Notation arr := (list R).
Hypothesis eps_nn : 0 <= eps.
Hypothesis zero_nn : 0 <= zero.
Variable junk : Z -> arr.
Hypothesis J : junk_ok (N := N) junk.

Lemma maxAbs_ok k (x : arr) r : (0 <= k <= zlen x)%Z -> exists v, maxAbs (N := N) k x r = Ok v /\ r <= v /\ (forall i, (0 <= i < k)%Z -> Rabs (zn 0 x i) <= v) /\
  (v = r \/ exists i, (0 <= i < k)%Z /\ v = Rabs (zn 0 x i) /\ r < v).
Proof using.
  intros H. destruct (wp_inv (maxAbs (N := N) k x r) (fun v => r <= v /\ (forall i, (0 <= i < k)%Z -> Rabs (zn 0 x i) <= v) /\ (v = r \/ exists i, (0 <= i < k)%Z /\ v = Rabs (zn 0 x i) /\ r < v))) as (v & E & K); [|eauto].
  unfold maxAbs. apply wp_for_up with (I := fun j v => r <= v /\ (forall i, (0 <= i < j)%Z -> Rabs (zn 0 x i) <= v) /\ (v = r \/ exists i, (0 <= i < k)%Z /\ v = Rabs (zn 0 x i) /\ r < v)); [lia| | |].
  - split; [lra|]. split; [intros; lia|now left].
  - intros j v Hj (A1 & A2 & A3). rewrite (rd_ok 0) by (rcar; lia). cbn [bind wp]. rnum. destruct (Rltb_spec v (Rabs (zn 0 x j))) as [L|L].
    + split; [lra|]. split; [|right; exists j; split; [lia|]; split; [reflexivity|lra]]. intros i Hi. destruct (Z.eq_dec i j) as [->|]; [lra|]. specialize (A2 i ltac:(lia)). lra.
    + split; [exact A1|]. split; [|exact A3]. intros i Hi. destruct (Z.eq_dec i j) as [->|]; [lra|]. apply A2. lia.
  - auto.
Qed.

Section Test.
Variables (n m : Z) (Am Hm : Z -> Z -> R) (s : qp N) (l0 l1 k0 k1 : list Z).
Hypothesis I : pinv eps zero infty n m Am s l0 l1 k0 k1.
Hypothesis HE : hess eps zero infty n (p_b s) Hm.
Hypothesis RX : Rexact eps zero infty n s (zlen l0 - zlen k1) l0 Hm.
Hypothesis CW : cwf eps zero infty n m (scr_of (N := N) s).
Hypothesis NR : (0 <= o_numRefinementSteps (p_opts s))%Z.

Notation nf := (zlen l0).
Notation nx := (zlen l1).
Notation nc := (zlen k1).
Notation nz := (zlen l0 - zlen k1)%Z.
Notation q := (dq eps zero infty n s l0).
Notation a := (da Am l0 k1).
Notation h := (dh Hm l0).
Notation D := (mkdims eps zero infty n m Am s l0 l1 k0 k1 I).
Notation curved := (curved eps zero infty s l0 k1).
Notation smallT := (smallT eps zero infty s k1).

(** the gradient of a multiplier vector has no component in the null space *)
Lemma range_part g y p : (0 <= p < nz)%Z -> (forall i, (0 <= i < nf)%Z -> g i = rsum 0 nc (fun k => a k i * y k)) -> rsum 0 nf (fun i => q i p * g i) = 0.
Proof using I.
  intros Hp G. rewrite (rsum_ext 0 nf _ (fun i => q i p * rsum 0 nc (fun k => a k i * y k))) by (intros i Hi; now rewrite G).
  rewrite (rsum_mv nf nc (fun i => q i p) (fun i k => a k i) y). apply rsum_0. intros k Hk. rewrite (rsum_ext 0 nf _ (fun i => a k i * q i p)) by (intros; ring).
  rewrite (f_az eps zero infty n m Am s l0 l1 k0 k1 I) by auto. ring.
Qed.

(** along a gradient in the range space the step stays put *)
Lemma no_move g x y : curved -> (forall p, (0 <= p < nz)%Z -> rsum 0 nf (fun i => q i p * g i) = 0) ->
  (forall i, (0 <= i < nf)%Z -> g i + rsum 0 nf (fun j => h i j * x j) - rsum 0 nc (fun k => a k i * y k) = 0) ->
  (forall i, (0 <= i < nc)%Z -> rsum 0 nf (fun j => a i j * x j) = 0) -> forall i, (0 <= i < nf)%Z -> x i = 0.
Proof using I HE RX zero_nn.
  intros CV G E K. pose proof D as DD. destruct DD.
  assert (ND : NoDup l0) by exact (nd0 eps zero infty n m Am s l0 l1 k0 k1 I).
  set (c := fun p => rsum 0 nf (fun j => q j p * x j)).
  assert (X : forall i, (0 <= i < nf)%Z -> x i = rsum 0 nz (fun p => q i p * c p)).
  { intros i Hi. set (v := spread l0 (fun j => x j)).
    assert (V : forall j, (0 <= j < nf)%Z -> v (zz l0 j) = x j) by (intros j Hj; unfold v; now rewrite spread_at).
    assert (C : forall p, comb l0 v (ce n (p_Q s)) p = c p).
    { intros p. unfold comb, c. rewrite <- (rsum_list l0 (fun u => v u * ce n (p_Q s) u p)). apply rsum_ext. intros j Hj. change (zn 0%Z l0 j) with (zz l0 j). rewrite V by exact Hj. unfold dq. ring. }
    assert (IK : inkernel l0 k1 Am v).
    { intros u Hu. destruct (In_zn 0%Z k1 u Hu) as (r & Hr & <-). rewrite <- (rsum_list l0 (fun w => Am (zn 0%Z k1 r) w * v w)). rewrite <- (K r Hr). apply rsum_ext. intros j Hj. change (zn 0%Z l0 j) with (zz l0 j). rewrite V by exact Hj. reflexivity. }
    rewrite <- V by exact Hi. rewrite (kernel_coef n (p_sizeT s) l0 k1 Am (p_Q s) (p_T s) v ND (pi_tq _ _ _ _ _ _ _ _ _ _ _ I) IK) by (apply zn_In; exact Hi).
    apply rsum_ext. intros p Hp. rewrite C. unfold dq. ring. }
  assert (S : forall p, (0 <= p < nz)%Z -> rsum 0 nf (fun i => q i p * rsum 0 nf (fun j => h i j * x j)) = 0).
  { intros p Hp. assert (T : rsum 0 nf (fun i => q i p * (g i + rsum 0 nf (fun j => h i j * x j))) = 0) by (apply (range_part _ y p Hp); intros i Hi; specialize (E i Hi); lra).
    rewrite (rsum_ext 0 nf _ (fun i => q i p * g i + q i p * rsum 0 nf (fun j => h i j * x j))) in T by (intros; ring). rewrite rsum_plus, G in T by exact Hp. lra. }
  destruct (plainH (p_b s)) eqn:PH.
  - assert (C0 : forall p, (0 <= p < nz)%Z -> c p = 0).
    { destruct (RX PH) as ((GR & DG) & _). assert (PD : posdef nz (zhz l0 Hm (ce n (p_Q s)))).
      { apply (gram_posdef nz (triu (q_R (p_b s)) n)); [apply QPBX3.triu_upper|intros i Hi; rewrite QPBX3.triu_diag; now apply DG|exact GR]. }
      destruct (some_or_none 0 nz c) as [EX|A]; [|exact A]. exfalso. specialize (PD c EX). unfold quad in PD.
      rewrite rsum_0 in PD; [lra|]. intros p Hp. rewrite (rsum_ext 0 nz _ (fun r => c p * (zhz l0 Hm (ce n (p_Q s)) p r * c r))) by (intros; ring). rewrite rsum_scal.
      rewrite (rsum_ext 0 nz _ (fun r => rsum 0 nf (fun i => q i p * rsum 0 nf (fun j => h i j * q j r)) * c r)) by (intros r Hr; now rewrite (f_zhz eps zero infty n Hm s l0 k1)).
      rewrite <- (rsum_mv nf nz (fun i => q i p) (fun i r => rsum 0 nf (fun j => h i j * q j r)) c). rewrite (rsum_ext 0 nf _ (fun i => q i p * rsum 0 nf (fun j => h i j * x j))).
      + rewrite S by exact Hp. ring.
      + intros i Hi. f_equal. rewrite <- (rsum_mv nf nz (fun j => h i j) q c). apply rsum_ext. intros j Hj. now rewrite X. }
    intros i Hi. rewrite X by exact Hi. apply rsum_0. intros p Hp. rewrite C0 by exact Hp. ring.
  - destruct (scalar eps zero infty n Hm s HE PH) as (c0 & Hc & Ec).
    assert (C1 : forall p, (0 <= p < nz)%Z -> c0 * c p = 0).
    { intros p Hp. rewrite <- (S p Hp). unfold c. rewrite <- rsum_scal. apply rsum_ext. intros i Hi. rewrite (h_scalar eps zero infty n m Am Hm s l0 l1 k0 k1 I c0 i x Hc Hi). ring. }
    assert (C2 : c0 <> 0 \/ (nz <= 0)%Z).
    { unfold plainH, is_hst in PH. destruct (q_htype (p_b s)) eqn:HT; try discriminate PH.
      - destruct (usingReg (p_b s)) eqn:UR; [|right; apply CV; auto]. left. subst c0. revert UR. unfold usingReg. rnum. destruct (Rltb_spec zero (q_regVal (p_b s))); [intros _; lra|discriminate].
      - left. subst c0. lra. }
    intros i Hi. rewrite X by exact Hi. destruct C2 as [C2|C2]; [|apply rsum_empty; lia]. apply rsum_0. intros p Hp. specialize (C1 p Hp). apply Rmult_integral in C1 as [C1|C1]; [contradiction|]. rewrite C1. ring.
Qed.

Lemma fullLI_ok (dg : arr) : zlen dg = n -> 0 <= o_epsLITests (p_opts s) ->
  exists r c, fullLI (N := N) junk dg s = Ok (r, scr_to (N := N) c s) /\ cwf eps zero infty n m c /\ r <> RET_INDEXLIST_CORRUPTED /\
    ((r = RET_LINEARLY_INDEPENDENT /\ exists p, (0 <= p < nz)%Z /\ comb l0 (fun u => zn 0 dg u) (ce n (p_Q s)) p <> 0) \/
     (r <> RET_LINEARLY_INDEPENDENT /\ (o_epsLITests (p_opts s) = 0 -> zero = 0 -> plainH (p_b s) = true -> smallT \/ forall p, (0 <= p < nz)%Z -> comb l0 (fun u => zn 0 dg u) (ce n (p_Q s)) p = 0))).
Proof using I HE RX CW NR J eps_nn zero_nn.
  intros LG EL. unfold fullLI. pose proof D as DD. destruct DD. pose proof (zlen_nonneg l0). pose proof (zlen_nonneg l1). pose proof (zlen_nonneg k1).
  pose proof (pi_w _ _ _ _ _ _ _ _ _ _ _ I) as W. assert (En := pw_n _ _ _ _ _ _ _ _ _ _ _ W). assert (Em := pw_m _ _ _ _ _ _ _ _ _ _ _ W).
  rewrite En, Em. set (dim := if (m >? n)%Z then m else n). assert (DM : (n <= dim)%Z /\ (m <= dim)%Z /\ (0 <= dim)%Z) by (unfold dim; destruct (Z.gtb_spec m n); rewrite <- LG; pose proof (zlen_nonneg dg); lia).
  assert (LJ : forall z, (0 <= z)%Z -> zlen (junk z) = z) by exact J.
  destruct (wp_inv (for_up 0 dim (fun i (b : arr) => wr b i (n0 (N := N))) (junk dim)) (fun b => zlen b = dim /\ forall i, (0 <= i < dim)%Z -> zn 0 b i = 0)) as (nul & E0 & Ln & Vn).
  { apply (wp_fill (0:R) (fun _ => 0)); [rewrite LJ; lia|intros i b Hi Lb; rewrite LJ in Lb by lia; apply wr_ok; rcar; lia|]. intros b Lb Vb _. rewrite LJ in Lb by lia. auto. }
  rcar. rewrite E0. cbn [bind]. rewrite d_x, d_f, d_c. set (d := mkS (N := N) dg nul nul nul nul).
  assert (DW : shwf eps zero infty n m d) by (constructor; cbn; lia).
  set (p0 := mkP (N := N) (junk nx) (junk nf) (junk nc) (junk nx)).
  assert (P0 : (nx <= zlen (sp_xFX p0 : arr))%Z /\ (nf <= zlen (sp_xFR p0 : arr))%Z /\ (nc <= zlen (sp_yAC p0 : arr))%Z /\ (nx <= zlen (sp_yFX p0 : arr))%Z) by (unfold p0; cbn; rewrite !LJ by lia; lia).
  destruct P0 as (Q1 & Q2 & Q3 & Q4).
  destruct (wp_inv _ _ (pstep_exact eps zero infty eps_nn zero_nn n m Am Hm s l0 l1 k0 k1 I HE RX d false false DW p0 CW NR Q1 Q2 Q3 Q4)) as (((rv & p') & s') & E & (c & CW' & ->) & (P1 & P2 & P3 & P4) & P).
  rcar. rewrite E. cbn [bind]. change (pAC (scr_to c s)) with (pAC s). change (pFX (scr_to c s)) with (pFX s). change (pFR (scr_to c s)) with (pFR s). change (p_opts (scr_to c s)) with (p_opts s). rewrite d_x, d_f, d_c.
  destruct (maxAbs_ok nc (sp_yAC p') (n0 (N := N)) ltac:(rcar; lia)) as (w1 & M1 & W1 & _). rcar. rewrite M1. cbn [bind].
  destruct (maxAbs_ok nx (sp_yFX p') w1 ltac:(rcar; lia)) as (w2 & M2 & W2 & _). rcar. rewrite M2. cbn [bind].
  destruct (maxAbs_ok nx (sp_xFX p') (n0 (N := N)) ltac:(rcar; lia)) as (z1 & M3 & Z1 & Z1a & Z1b). rcar. rewrite M3. cbn [bind].
  destruct (maxAbs_ok nf (sp_xFR p') z1 ltac:(rcar; lia)) as (z2 & M4 & Z2 & Z2a & Z2b). rcar. rewrite M4. cbn [bind].
  assert (BB : forall i, (0 <= i < n)%Z -> bB eps zero infty s d false i = 0) by (intros i Hi; unfold bB, d; cbn [sh_lb sh_ub]; destruct (is_sts _ _); apply Vn; lia).
  assert (BC : forall i, (0 <= i < m)%Z -> bC eps zero infty s d false i = 0) by (intros i Hi; unfold bC, d; cbn [sh_lbA sh_ubA]; destruct (is_sts _ _); apply Vn; lia).
  assert (FX : forall r, (0 <= r < nx)%Z -> zn 0 (sp_xFX p' : arr) r = 0).
  { intros r Hr. transitivity (bB eps zero infty s d false (zz l1 r)); [|apply BB, d_r1; exact Hr]. destruct P as [(_ & F & _)|(_ & _ & [F _ _ _])]; now apply F. }
  assert (Z10 : z1 = 0). { destruct Z1b as [Z1b|(i & Hi & Z1b & Lt)]; [exact Z1b|]. rewrite Z1b, FX, Rabs_R0 by exact Hi. reflexivity. }
  subst z1. assert (W0 : 0 <= w2) by (revert W1 W2; rnum; lra).
  set (g := fun i => zn 0 dg (zz l0 i)).
  assert (CB : forall p, comb l0 (fun u => zn 0 dg u) (ce n (p_Q s)) p = rsum 0 nf (fun i => q i p * g i)).
  { intros p. unfold comb. rewrite <- (rsum_list l0 (fun u => zn 0 dg u * ce n (p_Q s) u p)). apply rsum_ext. intros i Hi. change (zn 0%Z l0 i) with (zz l0 i). unfold g, dq. ring. }
  assert (DU : (forall i, (0 <= i < nf)%Z -> zn 0 (sp_xFR p' : arr) i = 0) \/
    ((forall i, (0 <= i < nf)%Z -> g i + rsum 0 nf (fun j => h i j * zn 0 (sp_xFR p' : arr) j) - rsum 0 nc (fun k => a k i * zn 0 (sp_yAC p' : arr) k) = 0) /\
     (forall i, (0 <= i < nc)%Z -> rsum 0 nf (fun j => a i j * zn 0 (sp_xFR p' : arr) j) = 0) /\ curved)).
  { assert (EQ : eqG eps zero infty Am Hm l0 l1 k1 d (sp_xFX p') (sp_xFR p') (sp_yAC p') -> eqB eps zero infty Am s l0 l1 k1 d false (sp_xFX p') (sp_xFR p') -> curved ->
      (forall i, (0 <= i < nf)%Z -> g i + rsum 0 nf (fun j => h i j * zn 0 (sp_xFR p' : arr) j) - rsum 0 nc (fun k => a k i * zn 0 (sp_yAC p' : arr) k) = 0) /\
      (forall i, (0 <= i < nc)%Z -> rsum 0 nf (fun j => a i j * zn 0 (sp_xFR p' : arr) j) = 0) /\ curved).
    { intros EG EB CV. split; [|split; [|exact CV]]; intros i Hi.
      - specialize (EG i Hi). unfold hx in EG. rewrite (rsum_0 0 nx) in EG by (intros r Hr; rewrite FX by exact Hr; ring). rewrite Rplus_0_r in EG. exact EG.
      - specialize (EB i Hi). unfold ax in EB. rewrite (rsum_0 0 nx) in EB by (intros r Hr; rewrite FX by exact Hr; ring). rewrite BC in EB by (apply d_rc; exact Hi). lra. }
    destruct P as [(_ & _ & [F|(F1 & F2 & F3)])|(_ & CV & [_ F1 F2 _])]; [left; exact F|right; now apply EQ|right; now apply EQ]. }
  destruct (Rltb_spec (o_epsLITests (p_opts s) * w2) z2) as [B|B].
  - exists RET_LINEARLY_INDEPENDENT, c. split; [|split; [exact CW'|split; [discriminate|left; split; [reflexivity|]]]].
    { rnum. destruct (Rltb_spec (o_epsLITests (p_opts s) * w2) z2); [reflexivity|contradiction]. }
    destruct (some_or_none 0 nz (fun p => comb l0 (fun u => zn 0 dg u) (ce n (p_Q s)) p)) as [EX|A]; [exact EX|]. exfalso.
    assert (XZ : forall i, (0 <= i < nf)%Z -> zn 0 (sp_xFR p' : arr) i = 0).
    { destruct DU as [DU|(EG & EB & CV)]; [exact DU|]. apply (no_move g (fun j => zn 0 (sp_xFR p' : arr) j) (fun k => zn 0 (sp_yAC p' : arr) k) CV); auto. intros p Hp. rewrite <- CB. now apply A. }
    assert (0 <= o_epsLITests (p_opts s) * w2) by (apply Rmult_le_pos; lra). revert Z2b. rnum. intros [Z2b|(i & Hi & Z2b & _)]; [lra|]. rewrite XZ, Rabs_R0 in Z2b by exact Hi. lra.
  - exists (if rv =r? SUCCESSFUL_RETURN then RET_LINEARLY_DEPENDENT else rv), c. split; [|split; [exact CW'|]].
    { rnum. destruct (Rltb_spec (o_epsLITests (p_opts s) * w2) z2); [contradiction|reflexivity]. }
    assert (NI : rv <> RET_INDEXLIST_CORRUPTED /\ rv <> RET_LINEARLY_INDEPENDENT).
    { destruct P as [([(-> & _)|[(-> & _)|(-> & _)]] & _)|(-> & _)]; split; discriminate. }
    split; [destruct (rv =r? SUCCESSFUL_RETURN); [discriminate|apply NI]|]. right. split; [destruct (rv =r? SUCCESSFUL_RETURN); [discriminate|apply NI]|].
    intros EL0 ZZ PH. rewrite EL0 in B. assert (XZ : forall i, (0 <= i < nf)%Z -> zn 0 (sp_xFR p' : arr) i = 0).
    { intros i Hi. specialize (Z2a i Hi). pose proof (Rabs_pos (zn 0 (sp_xFR p' : arr) i)). destruct (Req_dec (zn 0 (sp_xFR p' : arr) i) 0) as [|Nz]; [assumption|]. apply Rabs_pos_lt in Nz. lra. }
    assert (EQ : (forall i, (0 <= i < nf)%Z -> g i + rsum 0 nf (fun j => h i j * zn 0 (sp_xFR p' : arr) j) - rsum 0 nc (fun k => a k i * zn 0 (sp_yAC p' : arr) k) = 0) -> forall p, (0 <= p < nz)%Z -> comb l0 (fun u => zn 0 dg u) (ce n (p_Q s)) p = 0).
    { intros EG p Hp. rewrite CB. apply (range_part g (fun k => zn 0 (sp_yAC p' : arr) k) p Hp). intros i Hi. specialize (EG i Hi). rewrite (rsum_0 0 nf) in EG by (intros j Hj; rewrite XZ by exact Hj; ring). lra. }
    destruct P as [(F & _)|(_ & CV & [_ F1 _ _])].
    + destruct F as [(_ & F)|[(_ & F & _)|(_ & _ & F)]]; [now left| |lra]. unfold plainH in PH. rewrite F in PH. discriminate PH.
    + right. apply EQ. intros i Hi. specialize (F1 i Hi). unfold hx in F1. rewrite (rsum_0 0 nx) in F1 by (intros r Hr; rewrite FX by exact Hr; ring). rewrite Rplus_0_r in F1. exact F1.
Qed.
End Test.
End X21.
