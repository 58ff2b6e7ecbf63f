(** Exact step direction of QProblem, part 3: refinement and the whole direction. *)
From Verif Require Import Base Types Num Options Indexlist IndexlistProofs Loops RSum LinSpec SafeLib SubjectTo SubjectToProofs SubjectToProofs2
  Flipper PropFlipper Matrices MatLib MatSafe CsLib PropDense PropSparse PropSparse2 LinAlg PropLinAlg QProblemB QPBSafe QPBSafe2 QPBX1 QPBX2 QPBX3 QPBX4 QPBX5 QPBX7 QProblem QProblem2
  QPX1 QPX2 QPX3 QPX4 QPX5 QPX6 QPX7 QPX8 QPX9 QPX10 QPX11 QPX12 QPX13 QPX14 QPX15 QPX16 QPX18 QPX19.
Local Open Scope R_scope.

Section X20.
Variables eps zero infty : R.
Notation N := (RNumT eps zero infty).
Notation arr := (list R).
Hypothesis eps_nn : 0 <= eps.
Hypothesis zero_nn : 0 <= zero.

Ltac rdx := rewrite (rd_ok 0) by (rcar; rewrite ?zlen_zupd; lia); cbn [bind].

(** the scratch space has the sizes of the constructor (QProblem.cpp:156-164, QProblemB.cpp:160) *)
Record cwf (n m : Z) (c : pscr (N := N)) : Prop := {
  cw_A : zlen (c_A c : arr) = n; cw_B : zlen (c_B c : arr) = m; cw_tmp : zlen (c_tmp c : arr) = n; cw_dxy : zlen (c_dxy c : arr) = m;
  cw_dxz : zlen (c_dxz c : arr) = n; cw_zfr : zlen (c_zfr c : arr) = n; cw_dyAC : zlen (c_dyAC c : arr) = m
}.
(** the data of a shift cover all bounds and constraints *)
Record shwf (n m : Z) (d : pshift (N := N)) : Prop := {
  sw_g : (n <= zlen (sh_g d : arr))%Z; sw_lbA : (m <= zlen (sh_lbA d : arr))%Z; sw_ubA : (m <= zlen (sh_ubA d : arr))%Z; sw_lb : (n <= zlen (sh_lb d : arr))%Z; sw_ub : (n <= zlen (sh_ub d : arr))%Z
}.

Section Dir.
Variables (n m : Z) (Am Hm : Z -> Z -> R) (s : qp N) (l0 l1 k0 k1 : list Z).
Hypothesis I : pinv eps zero infty n m Am s l0 l1 k0 k1.
Hypothesis HE : hess eps zero infty n (p_b s) Hm.
Hypothesis RX : Rexact eps zero infty n s (zlen l0 - zlen k1) l0 Hm.

Notation nf := (zlen l0).
Notation nx := (zlen l1).
Notation nc := (zlen k1).
Notation nz := (zlen l0 - zlen k1)%Z.
Notation q := (dq eps zero infty n s l0).
Notation t := (dt eps zero infty s k1).
Notation a := (da Am l0 k1).
Notation h := (dh Hm l0).
Notation D := (mkdims eps zero infty n m Am s l0 l1 k0 k1 I).
Notation hx := (hx Hm l0 l1).
Notation ax := (ax Am l1 k1).
Notation tfull := (tfull eps zero infty n s l0 k1).
Notation rbase := (rbase Am l1 k1).
Notation gbase := (gbase Hm l0 l1).
Notation zsolved := (zsolved eps zero infty n Hm s l0 k1).
Notation ysolved := (ysolved eps zero infty n Hm s l0 k1).
Notation curved := (curved eps zero infty s l0 k1).
Notation smallT := (smallT eps zero infty s k1).

Variables (d : pshift (N := N)) (bCz bBz : bool).
Hypothesis DW : shwf n m d.
Notation bC := (bC eps zero infty s d bCz).
Notation bB := (bB eps zero infty s d bBz).
Notation g := (fun i => zn 0 (sh_g d) (zz l0 i)).

(** the equations of the free variables and of the active constraints *)
Definition eqG (xFX xFR yAC : arr) : Prop := forall i, (0 <= i < nf)%Z -> g i + hx xFX i + rsum 0 nf (fun j => h i j * zn 0 xFR j) - rsum 0 nc (fun k => a k i * zn 0 yAC k) = 0.
Definition eqB (xFX xFR : arr) : Prop := forall i, (0 <= i < nc)%Z -> rsum 0 nf (fun j => a i j * zn 0 xFR j) + ax xFX i = bC (zz k1 i).

Lemma maxAbs_tot k (x : arr) r : (0 <= k <= zlen x)%Z -> exists v, maxAbs (N := N) k x r = Ok v.
Proof using. intros H. destruct (wp_inv _ _ (maxAbs_total eps zero infty k x r H)) as (v & E & _). eauto. Qed.

Lemma residual_ok (xFX xFR yAC A B : arr) : (nx <= zlen xFX)%Z -> (nf <= zlen xFR)%Z -> (nc <= zlen yAC)%Z -> zlen A = n -> zlen B = m -> eqG xFX xFR yAC -> eqB xFX xFR ->
  wp (pd_residual (N := N) s d bCz xFX xFR yAC A B) (fun '(A', B', _) => zlen (A' : arr) = n /\ zlen (B' : arr) = m /\
    (forall i, (0 <= i < nf)%Z -> zn 0 A' i = 0) /\ (forall i, (0 <= i < nc)%Z -> zn 0 B' i = 0)).
Proof using I HE DW.
  intros Lx LF Ly LA LB EG EB. unfold pd_residual. pose proof D as DD. destruct DD. destruct DW. rewrite d_f, d_x, d_c.
  apply wp_bind. eapply wp_mono; [apply (gFR_ok eps zero infty n m Am s l0 l1 k0 k1 I d A); auto; lia|]. intros A1 (L1 & V1).
  assert (L1' : (nf <= zlen (A1 : arr))%Z) by (rcar; lia).
  apply wp_bind. eapply wp_mono with (P := fun A2 : arr => zlen A2 = zlen A1 /\ forall i, (0 <= i < nf)%Z -> zn 0 A2 i = g i + hx xFX i + rsum 0 nf (fun j => h i j * zn 0 xFR j)).
  { assert (PL : plainH (p_b s) = true -> wp (M <- q_theH (N := N) (p_b s) ;;
               a <- m_times_idx (N := N) M (p_free s) (p_free s) 1 n1 xFR nf n1 A1 nf ;;
               m_times_idx (N := N) M (p_free s) (p_fixed s) 1 n1 xFX nx n1 a nf) (fun A2 : arr => zlen A2 = zlen A1 /\ forall i, (0 <= i < nf)%Z -> zn 0 A2 i = g i + hx xFX i + rsum 0 nf (fun j => h i j * zn 0 xFR j))).
    { intros PH. destruct (theH eps zero infty n Hm s HE PH) as (M & EM & MO). rewrite EM. cbn [bind].
      destruct (mo_idx _ _ _ _ _ _ MO _ _ _ _ (n1 (N := N)) xFR A1 nf nf d_i0 d_v0 d_i0 d_v0 (or_introl eq_refl) LF L1' ltac:(lia) ltac:(lia)) as (y & E & Ly1 & V & _). rewrite E. cbn [bind].
      assert (Ly1' : (nf <= zlen (y : arr))%Z) by (rcar; lia).
      destruct (mo_idx _ _ _ _ _ _ MO _ _ _ _ (n1 (N := N)) xFX y nx nf d_i0 d_v0 d_i1 d_v1 (or_introl eq_refl) Lx Ly1' ltac:(lia) ltac:(lia)) as (y2 & E2 & Ly2 & V2 & _). rewrite E2. cbn [wp].
      split; [rcar; lia|]. intros i Hi. rewrite V2 by exact Hi. rewrite V by exact Hi. rewrite V1 by exact Hi. rnum. unfold QPX19.hx, dh. change (zn 0%Z l0 i) with (zz l0 i). ring_simplify.
      change (rsum 0 nx (fun q0 => Hm (zz l0 i) (zn 0%Z l1 q0) * zn 0 xFX q0)) with (rsum 0 nx (fun r => Hm (zz l0 i) (zz l1 r) * zn 0 xFX r)).
      change (rsum 0 nf (fun q0 => Hm (zz l0 i) (zn 0%Z l0 q0) * zn 0 xFR q0)) with (rsum 0 nf (fun j => Hm (zz l0 i) (zz l0 j) * zn 0 xFR j)). ring. }
    destruct (plainH (p_b s)) eqn:PH.
    - unfold plainH, is_hst in PH. destruct (q_htype (p_b s)) eqn:HT; try discriminate PH; exact (PL eq_refl).
    - clear PL. destruct (scalar eps zero infty n Hm s HE PH) as (c & Hc & Ec).
      assert (HX : forall i, (0 <= i < nf)%Z -> hx xFX i = 0) by (intros i Hi; eapply hx_scalar; eauto).
      assert (HS : forall i, (0 <= i < nf)%Z -> rsum 0 nf (fun j => h i j * zn 0 xFR j) = c * zn 0 xFR i) by (intros i Hi; eapply h_scalar; eauto).
      unfold plainH, is_hst in PH. destruct (q_htype (p_b s)) eqn:HT; try discriminate PH; rewrite ?HT in Ec.
      + destruct (usingReg (p_b s)) eqn:UR.
        * apply (wp_map (0:R) (fun p v => v + c * zn 0 xFR p)); [rcar; lia|intros i b Hi Lb; rdx; rdx; subst c; apply wr_ok; rcar; lia|]. intros A2 L2 V2 _. split; [exact L2|].
          intros i Hi. rewrite V2, V1 by exact Hi. rewrite HX, HS by exact Hi. ring.
        * cbn [wp]. split; [reflexivity|]. intros i Hi. rewrite V1, HX, HS by exact Hi. subst c. ring.
      + apply (wp_map (0:R) (fun p v => v + zn 0 xFR p)); [rcar; lia|intros i b Hi Lb; rdx; rdx; apply wr_ok; rcar; lia|]. intros A2 L2 V2 _. split; [exact L2|].
        intros i Hi. rewrite V2, V1 by exact Hi. rewrite HX, HS by exact Hi. subst c. ring. }
  intros A2 (L2 & V2). destruct (theA eps zero infty n m Am s l0 l1 k0 k1 I) as (M & EA & OA). rewrite EA. cbn [bind].
  assert (L2' : (nf <= zlen (A2 : arr))%Z) by (rcar; lia).
  destruct (af_tidx _ _ _ _ _ _ _ OA _ _ _ _ (nm1 (N := N)) (n1 (N := N)) yAC A2 nc nf d_ic d_vc d_i0 d_v0 (or_intror eq_refl) (or_intror eq_refl) Ly L2' ltac:(lia) ltac:(lia)) as (A3 & E3 & L3 & V3 & _).
  rewrite E3. cbn [bind]. assert (L3' : zlen (A3 : arr) = n) by (rcar; lia).
  destruct (maxAbs_tot nf A3 (n0 (N := N)) ltac:(lia)) as (rn & E4). rcar. rewrite E4. cbn [bind].
  apply wp_bind. eapply wp_mono; [apply (bAC_ok eps zero infty n m Am s l0 l1 k0 k1 I d bCz B); auto; lia|]. intros B1 (L5 & V5).
  assert (L5' : (nc <= zlen (B1 : arr))%Z) by (rcar; lia).
  destruct (af_idx _ _ _ _ _ _ _ OA _ _ _ _ (nm1 (N := N)) (n1 (N := N)) xFR B1 nf nc d_ic d_vc d_i0 d_v0 (or_intror eq_refl) (or_intror eq_refl) LF L5' ltac:(lia) ltac:(lia)) as (B2 & E6 & L6 & V6 & _).
  rewrite E6. cbn [bind]. assert (L6' : (nc <= zlen (B2 : arr))%Z) by (rcar; lia).
  destruct (af_idx _ _ _ _ _ _ _ OA _ _ _ _ (nm1 (N := N)) (n1 (N := N)) xFX B2 nx nc d_ic d_vc d_i1 d_v1 (or_intror eq_refl) (or_intror eq_refl) Lx L6' ltac:(lia) ltac:(lia)) as (B3 & E7 & L7 & V7 & _).
  rewrite E7. cbn [bind]. assert (L7' : zlen (B3 : arr) = m) by (rcar; lia).
  destruct (maxAbs_tot nc B3 rn ltac:(lia)) as (rn2 & E8). rcar. rewrite E8. cbn [bind wp].
  split; [exact L3'|]. split; [exact L7'|]. split.
  - intros i Hi. rewrite V3 by exact Hi. rewrite V2 by exact Hi. etransitivity; [|exact (EG i Hi)]. rewrite nm1_R. rnum. unfold da. change (zn 0%Z l0 i) with (zz l0 i).
    change (rsum 0 nc (fun q0 => Am (zn 0%Z k1 q0) (zz l0 i) * zn 0 yAC q0)) with (rsum 0 nc (fun k => Am (zz k1 k) (zz l0 i) * zn 0 yAC k)). ring.
  - intros i Hi. rewrite V7 by exact Hi. rewrite V6 by exact Hi. rewrite V5 by exact Hi. pose proof (EB i Hi) as EBi. rewrite <- EBi. rewrite nm1_R. rnum. unfold QPX19.ax, da. change (zn 0%Z k1 i) with (zz k1 i).
    change (rsum 0 nf (fun q0 => Am (zz k1 i) (zn 0%Z l0 q0) * zn 0 xFR q0)) with (rsum 0 nf (fun j => Am (zz k1 i) (zz l0 j) * zn 0 xFR j)).
    change (rsum 0 nx (fun q0 => Am (zz k1 i) (zn 0%Z l1 q0) * zn 0 xFX q0)) with (rsum 0 nx (fun r => Am (zz k1 i) (zz l1 r) * zn 0 xFX r)). ring.
Qed.

(** ** One round *)
Definition fails (rv : returnValue) : Prop :=
  rv = RET_STEPDIRECTION_FAILED_TQ /\ smallT \/
  rv = RET_UNKNOWN_BUG /\ q_htype (p_b s) = HST_ZERO /\ usingReg (p_b s) = false /\ (0 < nz)%Z \/
  rv = RET_STEPDIRECTION_FAILED_CHOLESKY /\ plainH (p_b s) = true /\ 0 < zero.

(** what a failing round leaves behind *)
Definition dull (xFX xFR yAC : arr) : Prop := (forall i, (0 <= i < nf)%Z -> zn 0 xFR i = 0) \/ eqG xFX xFR yAC /\ eqB xFX xFR /\ curved.
(** what a round may assume *)
Definition pend (xFX : arr) (lf ly r : Z) (st : pscr (N := N) * list N * list N) : Prop := let '(c, xFR, yAC) := st in
  cwf n m c /\ zlen (xFR : arr) = lf /\ zlen (yAC : arr) = ly /\
  if (r =? 0)%Z then (forall i, (0 <= i < nf)%Z -> zn 0 (c_A c : arr) i = g i /\ zn 0 (xFR : arr) i = 0) /\ (forall i, (0 <= i < nc)%Z -> zn 0 (c_B c : arr) i = bC (zz k1 i) /\ zn 0 (yAC : arr) i = 0)
  else (eqG xFX xFR yAC /\ eqB xFX xFR /\ curved) /\ ((0 < o_numRefinementSteps (p_opts s))%Z -> (forall i, (0 <= i < nf)%Z -> zn 0 (c_A c : arr) i = 0) /\ (forall i, (0 <= i < nc)%Z -> zn 0 (c_B c : arr) i = 0)).

Definition mid (xFX A B : arr) (r : Z) (c : pscr (N := N)) : Prop := cwf n m c /\
  (forall p, (0 <= p < nf)%Z -> zn 0 (c_tmp c : arr) p = tfull (c_dxy c) (c_dxz c) p) /\
  (forall i, (0 <= i < nc)%Z -> rsum 0 nc (fun p => t i p * zn 0 (c_dxy c : arr) p) = rbase r xFX B i) /\
  zsolved (gbase r xFX A) (c_dxy c) (c_dxz c) /\ curved /\
  ((0 < nz)%Z -> forall p, (0 <= p < nf)%Z -> zn 0 (c_zfr c : arr) p = rsum 0 nz (fun k => q p k * zn 0 (c_dxz c : arr) k)) /\
  (if plainH (p_b s) then forall i, (0 <= i < nf)%Z -> zn 0 (c_A c : arr) i = gbase r xFX A i + rsum 0 nf (fun j => h i j * rsum 0 nc (fun p => q j (nz + p)%Z * zn 0 (c_dxy c : arr) p))
   else forall i, (0 <= i < nf)%Z -> zn 0 (c_A c : arr) i = gbase r xFX A i).

Lemma round_ok (xFX : arr) lf ly r st : (nx <= zlen xFX)%Z -> (nf <= lf)%Z -> (nc <= ly)%Z -> (bBz = true -> forall r, (0 <= r < nx)%Z -> zn 0 xFX r = 0) ->
  (0 <= r <= o_numRefinementSteps (p_opts s))%Z -> pend xFX lf ly r st ->
  wp (pd_round (N := N) s d bCz bBz xFX r st) (fun c => match c with
    | Next st' => pend xFX lf ly (r + 1) st'
    | Brk (rv, c', xFR', yAC') => cwf n m c' /\ zlen (xFR' : arr) = lf /\ zlen (yAC' : arr) = ly /\ (fails rv /\ dull xFX xFR' yAC' \/ rv = SUCCESSFUL_RETURN /\ eqG xFX xFR' yAC' /\ eqB xFX xFR' /\ curved)
    end).
Proof using I HE RX DW eps_nn zero_nn.
  intros Lx LF LY XZ Hr. destruct st as ((c & xFR) & yAC). intros (CW & Lf & Ly & PE). unfold pd_round. cbv zeta. pose proof D as DD. destruct DD. rewrite d_f, d_c, d_z.
  assert (BZ : (bCz && bBz)%bool = true -> forall i, (0 <= i < nc)%Z -> zn 0 (c_B c : arr) i = 0).
  { intros E i Hi. apply andb_prop in E as (E1 & E2). destruct (Z.eqb_spec r 0) as [E0|E0]; [|apply (proj2 PE); [lia|exact Hi]]. rewrite (proj1 (proj2 PE i Hi)). unfold QPX18.bC. now rewrite E1. }
  assert (DU : dull xFX xFR yAC) by (destruct (r =? 0)%Z; [left; intros i Hi; apply PE; exact Hi|right; apply PE]).
  pose proof CW as [C1 C2 C3 C4 C5 C6 C7].
  apply wp_bind. eapply wp_mono with (P := fun u => match u with Brk (rv, c') => cwf n m c' /\ fails rv | Next c' => mid xFX (c_A c) (c_B c) r c' end).
  { destruct (Z.ltb_spec 0 nf) as [G|G].
    2:{ cbn [wp]. split; [exact CW|]. split; [intros; lia|]. split; [intros; lia|]. split; [intros p Hp; lia|]. split; [intros _ _; pose proof (zlen_nonneg k1); lia|]. split; [intros; lia|]. destruct (plainH (p_b s)); intros; lia. }
    apply wp_bind. eapply wp_mono; [apply (range_ok eps zero infty eps_nn n m Am s l0 l1 k0 k1 I bCz bBz r xFX (c_B c) (c_tmp c) (c_dxy c)); auto; rcar; lia|].
    intros [((B1 & tm1) & dy1)|((B1 & tm1) & dy1)].
    2:{ intros (L1 & L2 & L3 & SM). cbn [wp]. split; [constructor; cbn; auto; rcar; lia|]. left. auto. }
    intros (L1 & L2 & L3 & TM & RB & DZ).
    apply wp_bind. eapply wp_mono; [apply (null_ok eps zero infty zero_nn n m Am Hm s l0 l1 k0 k1 I HE RX bCz bBz r xFX (c_A c) tm1 dy1 (c_dxz c)); auto; rcar; lia|].
    intros [(A1 & dz1)|((rv & A1) & dz1)].
    2:{ intros (L4 & L5 & F). cbn [wp]. split; [constructor; cbn; auto; rcar; lia|]. right. exact F. }
    intros (L4 & L5 & ZS & CV & VA).
    apply wp_bind. eapply wp_mono with (P := fun '((zf, tm2) : arr * arr) => zlen zf = n /\ zlen tm2 = n /\ (forall p, (0 <= p < nf)%Z -> zn 0 tm2 p = tfull dy1 dz1 p) /\
      ((0 < nz)%Z -> forall p, (0 <= p < nf)%Z -> zn 0 zf p = rsum 0 nz (fun k => q p k * zn 0 (dz1 : arr) k))).
    { destruct (Z.ltb_spec 0 nz) as [GZ|GZ].
      - eapply wp_mono; [apply (addZ_ok eps zero infty n m Am s l0 l1 k0 k1 I dz1 (c_zfr c) tm1); rcar; lia|]. intros (zf, tm2) (L6 & L7 & V). split; [rcar; lia|]. split; [rcar; lia|]. split.
        + intros p Hp. rewrite (proj2 (V p Hp)). rewrite TM by exact Hp. reflexivity.
        + intros _ p Hp. apply (V p Hp).
      - cbn [wp]. split; [exact C6|]. split; [rcar; lia|]. split; [|intros; lia]. intros p Hp. rewrite TM by exact Hp. unfold QPX19.tfull. rewrite (rsum_empty 0 nz) by lia. ring. }
    intros (zf, tm2) (L6 & L7 & V6 & V7). cbn [wp]. split; [constructor; cbn; auto; rcar; lia|]. cbn [c_tmp c_dxy c_dxz c_zfr c_A].
    split; [exact V6|]. split; [exact RB|]. split; [exact ZS|]. split; [exact CV|]. split; [exact V7|]. destruct (plainH (p_b s)) eqn:PH.
    - intros i Hi. rewrite VA by exact Hi. f_equal. apply rsum_ext. intros j Hj. now rewrite TM.
    - subst A1. intros i Hi. unfold QPX19.gbase. rewrite (hx_scalar eps zero infty n m Am Hm s l0 l1 k0 k1 I HE xFX i PH Hi). destruct (r =? 0)%Z; rcar; ring. }
  intros [c1|(rv & c1)].
  2:{ intros (CW1 & F). cbn [wp]. split; [exact CW1|]. split; [exact Lf|]. split; [exact Ly|]. left. split; [exact F|exact DU]. }
  intros (CW1 & TM & RB & ZS & CV & ZF & VA). pose proof CW1 as [E1 E2 E3 E4 E5 E6 E7].
  apply wp_bind. eapply wp_mono with (P := fun '(rv, c2) => cwf n m c2 /\ (rv = SUCCESSFUL_RETURN /\ c_tmp c2 = c_tmp c1 /\ ysolved (gbase r xFX (c_A c)) (c_dxy c1) (c_dxz c1) (c_dyAC c2) \/ rv <> SUCCESSFUL_RETURN /\ smallT)).
  { destruct (Z.ltb_spec 0 nc) as [G|G].
    2:{ cbn [wp]. split; [exact CW1|]. left. split; [reflexivity|]. split; [reflexivity|]. intros p Hp. lia. }
    apply wp_bind. eapply wp_mono; [apply (mult_ok eps zero infty eps_nn n m Am Hm s l0 l1 k0 k1 I HE (gbase r xFX (c_A c)) (c_dxy c1) (c_dxz c1) (c_zfr c1) (c_A c1) (c_B c1) (c_dyAC c1)); auto; rcar; lia|].
    intros (((rv & A1) & B1) & dy1) (M1 & M2 & M3 & M4). cbn [wp]. split; [constructor; cbn; auto; rcar; lia|]. cbn [c_tmp c_dyAC].
    destruct M4 as [(-> & M4)|(-> & M4)]; [left; auto|right]. split; [discriminate|exact M4]. }
  intros (rv & c2) (CW2 & P2). pose proof CW2 as [F1 F2 F3 F4 F5 F6 F7].
  destruct P2 as [(-> & TE & YS)|(NS & SM)].
  2:{ destruct (rv =r? SUCCESSFUL_RETURN) eqn:ER; [exfalso; apply NS; now apply rv_eqb_eq|]. cbn [negb wp]. split; [exact CW2|]. split; [exact Lf|]. split; [exact Ly|]. left. split; [left; auto|exact DU]. }
  change (negb (SUCCESSFUL_RETURN =r? SUCCESSFUL_RETURN)) with false. cbn iota.
  (* the update *)
  apply wp_bind. apply (wp_map (0:R) (fun p v => v + zn 0 (c_tmp c2 : arr) p)); [rcar; lia|intros i b Hi Lb; rdx; rdx; apply wr_ok; rcar; lia|]. intros x2 Lx2 Vx2 _.
  apply wp_bind. apply (wp_map (0:R) (fun p v => v + zn 0 (c_dyAC c2 : arr) p)); [rcar; lia|intros i b Hi Lb; rdx; rdx; apply wr_ok; rcar; lia|]. intros y2 Ly2 Vy2 _.
  assert (S1 : forall i, (0 <= i < nf)%Z -> gbase r xFX (c_A c) i + rsum 0 nf (fun j => h i j * tfull (c_dxy c1) (c_dxz c1) j) - rsum 0 nc (fun k => a k i * zn 0 (c_dyAC c2 : arr) k) = 0).
  { apply (round_solves nf nc nz q a t h); [lia| | | |exact ZS|exact YS].
    - exact (f_rows eps zero infty n m Am s l0 l1 k0 k1 I).
    - exact (f_az eps zero infty n m Am s l0 l1 k0 k1 I).
    - exact (f_ay eps zero infty n m Am s l0 l1 k0 k1 I). }
  assert (S2 : forall i, (0 <= i < nc)%Z -> rsum 0 nf (fun j => a i j * tfull (c_dxy c1) (c_dxz c1) j) = rbase r xFX (c_B c) i).
  { intros i Hi. unfold QPX19.tfull. apply (a_step nf nc nz q a t); [exact (f_az eps zero infty n m Am s l0 l1 k0 k1 I)|exact (f_ay eps zero infty n m Am s l0 l1 k0 k1 I)|exact Hi|exact RB]. }
  assert (X2 : forall j, (0 <= j < nf)%Z -> zn 0 x2 j = zn 0 (xFR : arr) j + tfull (c_dxy c1) (c_dxz c1) j) by (intros j Hj; rewrite Vx2 by exact Hj; rewrite TE; now rewrite TM).
  assert (HX2 : forall i, rsum 0 nf (fun j => h i j * zn 0 x2 j) = rsum 0 nf (fun j => h i j * zn 0 (xFR : arr) j) + rsum 0 nf (fun j => h i j * tfull (c_dxy c1) (c_dxz c1) j)).
  { intros i. rewrite <- rsum_plus. apply rsum_ext. intros j Hj. rewrite X2 by exact Hj. ring. }
  assert (AX2 : forall i, rsum 0 nf (fun j => a i j * zn 0 x2 j) = rsum 0 nf (fun j => a i j * zn 0 (xFR : arr) j) + rsum 0 nf (fun j => a i j * tfull (c_dxy c1) (c_dxz c1) j)).
  { intros i. rewrite <- rsum_plus. apply rsum_ext. intros j Hj. rewrite X2 by exact Hj. ring. }
  assert (AY2 : forall i, rsum 0 nc (fun k => a k i * zn 0 y2 k) = rsum 0 nc (fun k => a k i * zn 0 (yAC : arr) k) + rsum 0 nc (fun k => a k i * zn 0 (c_dyAC c2 : arr) k)).
  { intros i. rewrite <- rsum_plus. apply rsum_ext. intros k Hk. rewrite Vy2 by exact Hk. ring. }
  assert (EG : eqG xFX x2 y2).
  { intros i Hi. rewrite HX2, AY2. specialize (S1 i Hi). unfold QPX19.gbase in S1. destruct (Z.eqb_spec r 0) as [E0|E0].
    - destruct PE as (PA & PB). rewrite (proj1 (PA i Hi)) in S1. rewrite (rsum_0 0 nf (fun j => h i j * zn 0 xFR j)) by (intros j Hj; rewrite (proj2 (PA j Hj)); ring).
      rewrite (rsum_0 0 nc (fun k => a k i * zn 0 yAC k)) by (intros k Hk; rewrite (proj2 (PB k Hk)); ring). lra.
    - destruct PE as ((PG & PB & _) & PZ). destruct (PZ ltac:(lia)) as (PZ1 & _). rewrite PZ1 in S1 by exact Hi. specialize (PG i Hi). lra. }
  assert (EB : eqB xFX x2).
  { intros i Hi. rewrite AX2. rewrite S2 by exact Hi. unfold QPX19.rbase. destruct (Z.eqb_spec r 0) as [E0|E0].
    - destruct PE as (PA & PB). rewrite (proj1 (PB i Hi)). rewrite (rsum_0 0 nf (fun j => a i j * zn 0 xFR j)) by (intros j Hj; rewrite (proj2 (PA j Hj)); ring). lra.
    - destruct PE as ((PG & PB & _) & PZ). destruct (PZ ltac:(lia)) as (_ & PZ1). rewrite PZ1 by exact Hi. specialize (PB i Hi). lra. }
  assert (R1 : (r + 1 =? 0)%Z = false) by (apply Z.eqb_neq; lia). assert (Lx2' : zlen (x2 : arr) = lf) by (rcar; lia). assert (Ly2' : zlen (y2 : arr) = ly) by (rcar; lia).
  destruct (Z.ltb_spec 0 (o_numRefinementSteps (p_opts s))) as [NS|NS]; cbn [negb].
  2:{ cbn [wp pend]. split; [exact CW2|]. split; [exact Lx2'|]. split; [exact Ly2'|]. rewrite R1. split; [auto|]. lia. }
  apply wp_bind. eapply wp_mono; [apply (residual_ok xFX x2 y2 (c_A c2) (c_B c2)); auto; rcar; lia|]. intros ((A3 & B3) & sm) (LA3 & LB3 & ZA & ZB).
  assert (CW3 : cwf n m (mkC (N := N) A3 B3 (c_tmp c2) (c_dxy c2) (c_dxz c2) (c_zfr c2) (c_dyAC c2))) by (constructor; cbn; auto).
  destruct sm; cbn [wp pend].
  - split; [exact CW3|]. split; [exact Lx2'|]. split; [exact Ly2'|]. right. auto.
  - split; [exact CW3|]. split; [exact Lx2'|]. split; [exact Ly2'|]. rewrite R1. cbn [c_A c_B]. auto.
Qed.

(** ** Multipliers of the fixed variables *)
Lemma yFX_ok (s' : qp N) (xFX xFR yAC yFX : arr) : (nx <= zlen xFX)%Z -> (nf <= zlen xFR)%Z -> (nc <= zlen yAC)%Z -> (nx <= zlen yFX)%Z ->
  wp (pd_yFX (N := N) s d xFX xFR yAC yFX) (fun y' : arr => zlen y' = zlen yFX /\ forall r, (0 <= r < nx)%Z ->
    zn 0 y' r = zn 0 (sh_g d) (zz l1 r) + rsum 0 nf (fun j => Hm (zz l1 r) (zz l0 j) * zn 0 xFR j) + rsum 0 nx (fun k => Hm (zz l1 r) (zz l1 k) * zn 0 xFX k) - rsum 0 nc (fun k => Am (zz k1 k) (zz l1 r) * zn 0 yAC k)).
Proof using I HE DW.
  intros Lx LF Ly Lf. unfold pd_yFX. pose proof D as DD. destruct DD. destruct DW. rewrite d_f, d_x, d_c.
  destruct (Z.leb_spec nx 0) as [G|G]; [cbn [wp]; split; [reflexivity|intros; lia]|].
  apply wp_bind. apply (wp_fill (0:R) (fun r => zn 0 (sh_g d) (zz l1 r))); [rcar; lia| |].
  { intros i b Hi Lb. rewrite (rdFX eps zero infty n m Am s l0 l1 k0 k1 I i Hi). cbn [bind]. specialize (d_r1 i Hi). rdx. apply wr_ok. rcar; lia. }
  intros a1 L1 V1 _. destruct (theA eps zero infty n m Am s l0 l1 k0 k1 I) as (M & EA & OA). rewrite EA. cbn [bind]. assert (L1' : (nx <= zlen (a1 : arr))%Z) by (rcar; lia).
  destruct (af_tidx _ _ _ _ _ _ _ OA _ _ _ _ (nm1 (N := N)) (n1 (N := N)) yAC a1 nc nx d_ic d_vc d_i1 d_v1 (or_intror eq_refl) (or_intror eq_refl) Ly L1' ltac:(lia) ltac:(lia)) as (a2 & E2 & L2 & V2 & _).
  rewrite E2. cbn [bind]. assert (L2' : (nx <= zlen (a2 : arr))%Z) by (rcar; lia).
  assert (V2' : forall r, (0 <= r < nx)%Z -> zn 0 (a2 : arr) r = zn 0 (sh_g d) (zz l1 r) - rsum 0 nc (fun k => Am (zz k1 k) (zz l1 r) * zn 0 yAC k)).
  { intros r Hr. rewrite V2 by exact Hr. rewrite V1 by exact Hr. rewrite nm1_R. rnum. change (zn 0%Z l1 r) with (zz l1 r).
    change (rsum 0 nc (fun q0 => Am (zn 0%Z k1 q0) (zz l1 r) * zn 0 yAC q0)) with (rsum 0 nc (fun k => Am (zz k1 k) (zz l1 r) * zn 0 yAC k)). ring. }
  assert (PL : plainH (p_b s) = true -> wp (M <- q_theH (N := N) (p_b s) ;;
      a <- m_times_idx (N := N) M (p_fixed s) (p_free s) 1 n1 xFR nf n1 a2 nx ;;
      m_times_idx (N := N) M (p_fixed s) (p_fixed s) 1 n1 xFX nx n1 a nx) (fun y' : arr => zlen y' = zlen yFX /\ forall r, (0 <= r < nx)%Z ->
    zn 0 y' r = zn 0 (sh_g d) (zz l1 r) + rsum 0 nf (fun j => Hm (zz l1 r) (zz l0 j) * zn 0 xFR j) + rsum 0 nx (fun k => Hm (zz l1 r) (zz l1 k) * zn 0 xFX k) - rsum 0 nc (fun k => Am (zz k1 k) (zz l1 r) * zn 0 yAC k))).
  { intros PH. destruct (theH eps zero infty n Hm s HE PH) as (M' & EM & MO). rewrite EM. cbn [bind].
    destruct (mo_idx _ _ _ _ _ _ MO _ _ _ _ (n1 (N := N)) xFR a2 nf nx d_i1 d_v1 d_i0 d_v0 (or_introl eq_refl) LF L2' ltac:(lia) ltac:(lia)) as (y & E & Ly1 & V & _). rewrite E. cbn [bind].
    assert (Ly1' : (nx <= zlen (y : arr))%Z) by (rcar; lia).
    destruct (mo_idx _ _ _ _ _ _ MO _ _ _ _ (n1 (N := N)) xFX y nx nx d_i1 d_v1 d_i1 d_v1 (or_introl eq_refl) Lx Ly1' ltac:(lia) ltac:(lia)) as (y2 & E3 & Ly2 & V3 & _). rewrite E3. cbn [wp].
    split; [rcar; lia|]. intros r Hr. rewrite V3 by exact Hr. rewrite V by exact Hr. rewrite V2' by exact Hr. rnum. change (zn 0%Z l1 r) with (zz l1 r).
    change (rsum 0 nx (fun q0 => Hm (zz l1 r) (zn 0%Z l1 q0) * zn 0 xFX q0)) with (rsum 0 nx (fun k => Hm (zz l1 r) (zz l1 k) * zn 0 xFX k)).
    change (rsum 0 nf (fun q0 => Hm (zz l1 r) (zn 0%Z l0 q0) * zn 0 xFR q0)) with (rsum 0 nf (fun j => Hm (zz l1 r) (zz l0 j) * zn 0 xFR j)). ring. }
  destruct (plainH (p_b s)) eqn:PH.
  - unfold plainH, is_hst in PH. destruct (q_htype (p_b s)) eqn:HT; try discriminate PH; exact (PL eq_refl).
  - clear PL. destruct (scalar eps zero infty n Hm s HE PH) as (c & Hc & Ec).
    assert (HX : forall r, (0 <= r < nx)%Z -> rsum 0 nf (fun j => Hm (zz l1 r) (zz l0 j) * zn 0 xFR j) = 0).
    { intros r Hr. apply rsum_0. intros j Hj. rewrite Hc, delta_ne; [ring|]. intros E. symmetry in E. revert E. eapply apart2; eauto. }
    assert (HS : forall r, (0 <= r < nx)%Z -> rsum 0 nx (fun k => Hm (zz l1 r) (zz l1 k) * zn 0 xFX k) = c * zn 0 xFX r).
    { intros r Hr. rewrite (rsum_ext 0 nx _ (fun k => c * (delta r k * zn 0 xFX k))) by (intros k Hk; rewrite Hc, delta_nodup by (auto; exact (nd1 _ _ _ _ _ _ _ _ _ _ _ I)); ring). rewrite rsum_scal, rsum_pick by exact Hr. reflexivity. }
    unfold plainH, is_hst in PH. destruct (q_htype (p_b s)) eqn:HT; try discriminate PH; rewrite ?HT in Ec.
    + destruct (usingReg (p_b s)) eqn:UR.
      * apply (wp_map (0:R) (fun p v => v + c * zn 0 xFX p)); [rcar; lia|intros i b Hi Lb; rdx; rdx; subst c; apply wr_ok; rcar; lia|]. intros A2 L3 V3 _. split; [rcar; lia|].
        intros i Hi. rewrite V3, V2' by exact Hi. rewrite HX, HS by exact Hi. ring.
      * cbn [wp]. split; [rcar; lia|]. intros i Hi. rewrite V2', HX, HS by exact Hi. subst c. ring.
    + apply (wp_map (0:R) (fun p v => v + 1 * zn 0 xFX p)); [rcar; lia|intros i b Hi Lb; rdx; rdx; apply wr_ok; rcar; lia|]. intros A2 L3 V3 _. split; [rcar; lia|].
      intros i Hi. rewrite V3, V2' by exact Hi. rewrite HX, HS by exact Hi. subst c. ring.
Qed.

(** ** The direction *)
Record pdir (p : pstep (N := N)) : Prop := {
  pd_fix : forall r, (0 <= r < nx)%Z -> zn 0 (sp_xFX p : arr) r = bB (zz l1 r);
  pd_free : eqG (sp_xFX p) (sp_xFR p) (sp_yAC p);
  pd_act : eqB (sp_xFX p) (sp_xFR p);
  pd_mul : forall r, (0 <= r < nx)%Z -> zn 0 (sp_yFX p : arr) r = zn 0 (sh_g d) (zz l1 r) + rsum 0 nf (fun j => Hm (zz l1 r) (zz l0 j) * zn 0 (sp_xFR p : arr) j) +
    rsum 0 nx (fun k => Hm (zz l1 r) (zz l1 k) * zn 0 (sp_xFX p : arr) k) - rsum 0 nc (fun k => Am (zz k1 k) (zz l1 r) * zn 0 (sp_yAC p : arr) k)
}.
Definition fixed_dir (p : pstep (N := N)) : Prop := forall r, (0 <= r < nx)%Z -> zn 0 (sp_xFX p : arr) r = bB (zz l1 r).
Definition plen (p p' : pstep (N := N)) : Prop := zlen (sp_xFX p' : arr) = zlen (sp_xFX p : arr) /\ zlen (sp_xFR p' : arr) = zlen (sp_xFR p : arr) /\ zlen (sp_yAC p' : arr) = zlen (sp_yAC p : arr) /\ zlen (sp_yFX p' : arr) = zlen (sp_yFX p : arr).

Lemma pstep_exact (p : pstep (N := N)) : cwf n m (scr_of (N := N) s) -> (0 <= o_numRefinementSteps (p_opts s))%Z ->
  (nx <= zlen (sp_xFX p : arr))%Z -> (nf <= zlen (sp_xFR p : arr))%Z -> (nc <= zlen (sp_yAC p : arr))%Z -> (nx <= zlen (sp_yFX p : arr))%Z ->
  wp (p_stepDirection (N := N) d bCz bBz p s) (fun '(rv, p', s') => (exists c, cwf n m c /\ s' = scr_to (N := N) c s) /\ plen p p' /\
    (fails rv /\ fixed_dir p' /\ dull (sp_xFX p') (sp_xFR p') (sp_yAC p') \/ rv = SUCCESSFUL_RETURN /\ curved /\ pdir p')).
Proof using I HE RX DW eps_nn zero_nn.
  intros CW NR LX LF LY LY2. unfold p_stepDirection. pose proof D as DD. destruct DD. pose proof DW as [W1 W2 W3 W4 W5]. destruct CW as [C1 C2 C3 C4 C5 C6 C7]. cbn in C1, C2, C3, C4, C5, C6, C7.
  apply wp_bind. eapply wp_mono; [apply (xFX_ok eps zero infty n m Am s l0 l1 k0 k1 I d bBz (sp_xFX p)); auto|]. intros xFX (Lx & Vx).
  assert (XZ : bBz = true -> forall r, (0 <= r < nx)%Z -> zn 0 xFX r = 0) by (intros E r Hr; rewrite Vx by exact Hr; unfold QPX18.bB; now rewrite E).
  apply wp_bind. eapply wp_mono; [apply (gFR_ok eps zero infty n m Am s l0 l1 k0 k1 I d (p_tempA s)); auto; rcar; lia|]. intros A (LA & VA). rewrite d_f, d_c.
  apply wp_bind. apply (wp_fill (0:R) (fun _ => 0)); [rcar; lia|intros i b Hi Lb; apply wr_ok; rcar; lia|]. intros xFR Lf VF _.
  apply wp_bind. apply (wp_fill (0:R) (fun _ => 0)); [rcar; lia|intros i b Hi Lb; apply wr_ok; rcar; lia|]. intros yAC Ly VY _.
  apply wp_bind. eapply wp_mono; [apply (bAC_ok eps zero infty n m Am s l0 l1 k0 k1 I d bCz (p_tempB s)); auto; rcar; lia|]. intros B (LB & VB).
  assert (LX' : (nx <= zlen xFX)%Z) by (rcar; lia).
  apply wp_bind. eapply wp_mono with (P := fun c => let '(rv, c, xFR', yAC') := match c with Next (c, xFR', yAC') => (SUCCESSFUL_RETURN, c, xFR', yAC') | Brk e => e end in
     cwf n m c /\ zlen (xFR' : arr) = zlen (sp_xFR p : arr) /\ zlen (yAC' : arr) = zlen (sp_yAC p : arr) /\ (fails rv /\ dull xFX xFR' yAC' \/ rv = SUCCESSFUL_RETURN /\ eqG xFX xFR' yAC' /\ eqB xFX xFR' /\ curved)).
  { apply wp_forb_up with (I := fun r st => pend xFX (zlen (sp_xFR p : arr)) (zlen (sp_yAC p : arr)) r st)
      (J := fun '(rv, c', xFR', yAC') => cwf n m c' /\ zlen (xFR' : arr) = zlen (sp_xFR p : arr) /\ zlen (yAC' : arr) = zlen (sp_yAC p : arr) /\ (fails rv /\ dull xFX xFR' yAC' \/ rv = SUCCESSFUL_RETURN /\ eqG xFX xFR' yAC' /\ eqB xFX xFR' /\ curved)); [lia| | | |].
    - cbn [pend]. split; [constructor; cbn; auto; rcar; lia|]. split; [exact Lf|]. split; [exact Ly|]. rewrite Z.eqb_refl. cbn [c_A c_B].
      split; intros i Hi; rewrite ?VA, ?VF, ?VB, ?VY by exact Hi; auto.
    - intros r st Hr P. apply round_ok; auto. lia.
    - intros ((c & xf) & ya) P. cbn [pend] in P. destruct P as (P1 & P2 & P3 & P4). replace (o_numRefinementSteps (p_opts s) + 1 =? 0)%Z with false in P4 by (symmetry; apply Z.eqb_neq; lia).
      split; [exact P1|]. split; [exact P2|]. split; [exact P3|]. right. tauto.
    - intros (((rv & c) & xf) & ya) P. exact P. }
  (* rounds *)
  assert (FIN : forall rv c (xF2 yA2 : arr), cwf n m c -> zlen xF2 = zlen (sp_xFR p : arr) -> zlen yA2 = zlen (sp_yAC p : arr) -> (fails rv /\ dull xFX xF2 yA2 \/ rv = SUCCESSFUL_RETURN /\ eqG xFX xF2 yA2 /\ eqB xFX xF2 /\ curved) ->
    wp (if negb (rv =r? SUCCESSFUL_RETURN) then Ok (rv, mkP (N := N) xFX xF2 yA2 (sp_yFX p), scr_to (N := N) c s) else
        yFX <- pd_yFX (N := N) (scr_to (N := N) c s) d xFX xF2 yA2 (sp_yFX p) ;; Ok (SUCCESSFUL_RETURN, mkP (N := N) xFX xF2 yA2 yFX, scr_to (N := N) c s))
       (fun '(rv, p', s') => (exists c, cwf n m c /\ s' = scr_to (N := N) c s) /\ plen p p' /\ (fails rv /\ fixed_dir p' /\ dull (sp_xFX p') (sp_xFR p') (sp_yAC p') \/ rv = SUCCESSFUL_RETURN /\ curved /\ pdir p'))).
  { intros rv c xF2 yA2 CW' LF2 LY3 P.
    destruct P as [(F & DU)|(-> & EG & EB & CV)].
    - assert (ER : (rv =r? SUCCESSFUL_RETURN) = false) by (destruct F as [(-> & _)|[(-> & _)|(-> & _)]]; reflexivity).
      rewrite ER. cbn [negb wp]. split; [exists c; auto|]. split; [split; [exact Lx|]; cbn; auto|]. left. split; [exact F|]. split; [exact Vx|exact DU].
    - change (negb (SUCCESSFUL_RETURN =r? SUCCESSFUL_RETURN)) with false. cbn iota.
      change (pd_yFX (N := N) (scr_to (N := N) c s) d xFX xF2 yA2 (sp_yFX p)) with (pd_yFX (N := N) s d xFX xF2 yA2 (sp_yFX p)).
      apply wp_bind. eapply wp_mono; [apply (yFX_ok s xFX xF2 yA2 (sp_yFX p)); auto; rcar; lia|]. intros yFX (L4 & V4). cbn [wp].
      split; [exists c; auto|]. split; [split; [exact Lx|]; cbn; auto|]. right. split; [reflexivity|]. split; [exact CV|]. constructor; cbn; auto. }
  intros [((c & xF2) & yA2)|(((rv & c) & xF2) & yA2)] (CW' & LF2 & LY3 & P); cbv zeta.
  - exact (FIN SUCCESSFUL_RETURN c xF2 yA2 CW' LF2 LY3 P).
  - exact (FIN rv c xF2 yA2 CW' LF2 LY3 P).
Qed.
End Dir.
End X20.
