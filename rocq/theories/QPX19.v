(** Exact step direction of QProblem, part 2: the parts of one round. *)
From Verif Require Import Base Types Num Options Indexlist IndexlistProofs Loops RSum LinSpec SafeLib SubjectTo SubjectToProofs SubjectToProofs2
  Flipper PropFlipper Matrices MatLib MatSafe CsLib PropDense PropSparse PropSparse2 LinAlg PropLinAlg QProblemB QPBSafe QPBSafe2 QPBX1 QPBX2 QPBX3 QPBX4 QPBX5 QPBX7 QProblem QProblem2
  QPX1 QPX2 QPX3 QPX4 QPX5 QPX6 QPX7 QPX8 QPX9 QPX10 QPX11 QPX12 QPX13 QPX14 QPX15 QPX16 QPX18.
Local Open Scope R_scope.

Section X19.
Variables eps zero infty : R.
Notation N := (RNumT eps zero infty).
Notation arr := (list R).
Hypothesis eps_nn : 0 <= eps.
Hypothesis zero_nn : 0 <= zero.

Ltac rdx := rewrite (rd_ok 0) by (rcar; rewrite ?zlen_zupd; lia); cbn [bind].

Section Dir.
Variables (n m : Z) (Am Hm : Z -> Z -> R) (s : qp N) (l0 l1 k0 k1 : list Z).
Hypothesis I : pinv eps zero infty n m Am s l0 l1 k0 k1.
Hypothesis HE : hess eps zero infty n (p_b s) Hm.
Hypothesis RX : Rexact eps zero infty n s (zlen l0 - zlen k1) l0 Hm.

Notation nf := (zlen l0).
Notation nx := (zlen l1).
Notation nc := (zlen k1).
Notation nz := (zlen l0 - zlen k1)%Z.
Notation q := (dq eps zero infty n s l0).
Notation t := (dt eps zero infty s k1).
Notation a := (da Am l0 k1).
Notation h := (dh Hm l0).
Notation D := (mkdims eps zero infty n m Am s l0 l1 k0 k1 I).

(** what happens when a solve fails *)
Definition smallT : Prop := exists i, (0 <= i < nc)%Z /\ Rabs (te (p_sizeT s) (p_T s) i (p_sizeT s - 1 - i)) <= eps.

Lemma theA : exists M, p_theA (N := N) s = Ok M /\ amat_full eps zero infty m n M Am.
Proof using I. destruct (pi_A _ _ _ _ _ _ _ _ _ _ _ I) as (M & E & OA). exists M. unfold p_theA. rewrite E. auto. Qed.
Lemma theH : plainH (p_b s) = true -> exists M, q_theH (N := N) (p_b s) = Ok M /\ mat_ok eps zero infty n M Hm.
Proof using HE. intros P. destruct (hess_plain eps zero infty n (p_b s) Hm HE P) as (M & _ & E & K). eauto. Qed.
Lemma scalar : plainH (p_b s) = false -> exists c, (forall i j, Hm i j = c * delta i j) /\
  c = match q_htype (p_b s) with HST_ZERO => if usingReg (p_b s) then q_regVal (p_b s) else 0 | _ => 1 end.
Proof using HE. exact (scalar_hess eps zero infty n (p_b s) Hm HE). Qed.
Definition hx (xFX : arr) (i : Z) : R := rsum 0 nx (fun r => Hm (zz l0 i) (zz l1 r) * zn 0 xFX r).
Definition ax (xFX : arr) (i : Z) : R := rsum 0 nx (fun r => Am (zz k1 i) (zz l1 r) * zn 0 xFX r).
Lemma hx_zero xFX i : (forall r, (0 <= r < nx)%Z -> zn 0 xFX r = 0) -> hx xFX i = 0.
Proof using. intros X. apply rsum_0. intros r Hr. rewrite X by exact Hr. ring. Qed.
Lemma ax_zero xFX i : (forall r, (0 <= r < nx)%Z -> zn 0 xFX r = 0) -> ax xFX i = 0.
Proof using. intros X. apply rsum_0. intros r Hr. rewrite X by exact Hr. ring. Qed.
Lemma hx_scalar xFX i : plainH (p_b s) = false -> (0 <= i < nf)%Z -> hx xFX i = 0.
Proof using HE I. intros P Hi. destruct (scalar P) as (c & Hc & _). apply rsum_0. intros r Hr. rewrite Hc, delta_ne by (eapply apart2; eauto). ring. Qed.
Lemma h_scalar c i x : (forall i j, Hm i j = c * delta i j) -> (0 <= i < nf)%Z -> rsum 0 nf (fun j => h i j * x j) = c * x i.
Proof using I.
  intros Hc Hi. rewrite (rsum_ext 0 nf _ (fun j => c * (delta i j * x j))).
  - rewrite rsum_scal, rsum_pick by exact Hi. reflexivity.
  - intros j Hj. unfold dh. rewrite Hc, delta_nodup by (auto; exact (nd0 _ _ _ _ _ _ _ _ _ _ _ I)). ring.
Qed.

(** ** 1) range space *)
Definition rbase (r : Z) (xFX B : arr) (i : Z) : R := zn 0 B i - if (r =? 0)%Z then ax xFX i else 0.
Lemma range_ok bCz bBz r (xFX B tmp dxy : arr) : (nx <= zlen xFX)%Z -> (nc <= zlen B)%Z -> (nf <= zlen tmp)%Z -> (nc <= zlen dxy)%Z ->
  (bBz = true -> forall r, (0 <= r < nx)%Z -> zn 0 xFX r = 0) -> (bCz && bBz = true -> forall i, (0 <= i < nc)%Z -> zn 0 B i = 0) ->
  wp (pd_range (N := N) s bCz bBz r xFX B tmp dxy) (fun c => match c with
    | Brk (B', tmp', dxy') => zlen (B' : arr) = zlen B /\ zlen (tmp' : arr) = zlen tmp /\ zlen (dxy' : arr) = zlen dxy /\ smallT
    | Next (B', tmp', dxy') => zlen (B' : arr) = zlen B /\ zlen (tmp' : arr) = zlen tmp /\ zlen (dxy' : arr) = zlen dxy /\
        (forall p, (0 <= p < nf)%Z -> zn 0 tmp' p = rsum 0 nc (fun j => q p (nz + j)%Z * zn 0 dxy' j)) /\
        (forall i, (0 <= i < nc)%Z -> rsum 0 nc (fun p => t i p * zn 0 dxy' p) = rbase r xFX B i) /\
        (bCz && bBz = true -> forall j, (0 <= j < nc)%Z -> zn 0 dxy' j = 0)
    end).
Proof using I eps_nn.
  intros Lx LB Lt Ld XZ BZ. unfold pd_range. pose proof D as DD. destruct DD.
  apply wp_bind. rewrite d_f. apply (wp_fill (0:R) (fun _ => 0)); [rcar; lia|intros i b Hi Lb; apply wr_ok; rcar; lia|]. intros tm Lm Vm _.
  rewrite d_c. destruct (Z.leb_spec nc 0) as [G|G].
  { cbn [wp]. repeat (split; [first [reflexivity|exact Lm]|]). split; [|split; intros; lia]. intros p Hp. rewrite Vm by exact Hp. now rewrite rsum_empty by lia. }
  destruct (bCz && bBz)%bool eqn:BB.
  { apply wp_bind. apply (wp_fill (0:R) (fun _ => 0)); [rcar; lia|intros i b Hi Lb; apply wr_ok; rcar; lia|]. intros d2 L2 V2 _. cbn [wp].
    split; [reflexivity|]. split; [exact Lm|]. split; [exact L2|]. split; [|split].
    - intros p Hp. rewrite Vm by exact Hp. symmetry. apply rsum_0. intros j Hj. rewrite V2 by exact Hj. ring.
    - intros i Hi. apply andb_prop in BB as (BC & BB). unfold rbase. rewrite BZ by auto. rewrite ax_zero by auto. rewrite rsum_0 by (intros p Hp; rewrite V2 by exact Hp; ring). destruct (_ =? _)%Z; ring.
    - intros _ j Hj. now apply V2. }
  apply wp_bind. eapply wp_mono with (P := fun B1 : arr => zlen B1 = zlen B /\ forall i, (0 <= i < nc)%Z -> zn 0 B1 i = rbase r xFX B i).
  { unfold rbase. destruct bBz eqn:EB; cbn [negb andb].
    - cbn [wp]. split; [reflexivity|]. intros i Hi. rewrite ax_zero by auto. destruct (r =? 0)%Z; ring.
    - destruct (r =? 0)%Z; [|cbn [wp]; split; [reflexivity|intros; ring]]. destruct theA as (M & EA & OA). rewrite EA. cbn [bind].
      destruct (af_idx _ _ _ _ _ _ _ OA _ _ _ _ (nm1 (N := N)) (n1 (N := N)) xFX B (pFX s) nc d_ic d_vc d_i1 d_v1 (or_intror eq_refl) (or_intror eq_refl) Lx LB ltac:(lia) ltac:(lia)) as (y & E & Ly & V & _).
      rewrite E. cbn [wp]. split; [exact Ly|]. intros i Hi. rewrite V by exact Hi. rewrite nm1_R. unfold ax. rnum. change (zn 0%Z k1 i) with (zz k1 i). ring. }
  intros B1 (L1 & V1).
  destruct (backsolveT_ok eps zero infty s nc (p_sizeT s) B1 false dxy d_c eq_refl d_T ltac:(lia) ltac:(rcar; lia) ltac:(lia) eps_nn) as (rv & d2 & E & L2 & P). rewrite E. cbn [bind].
  destruct P as [(-> & _ & P)|(-> & SM)].
  - change (negb (SUCCESSFUL_RETURN =r? SUCCESSFUL_RETURN)) with false. cbn iota. apply wp_bind. rewrite <- d_c, <- d_f. eapply wp_mono; [apply (Y_ok eps zero infty n m Am s l0 l1 k0 k1 I d2 tm); rcar; lia|].
    rewrite ?d_c, ?d_f. intros t2 (L3 & V3). cbn [wp]. split; [exact L1|]. split; [rcar; lia|]. split; [exact L2|]. split; [|split; [|discriminate]].
    + intros p Hp. rewrite V3, Vm by exact Hp. ring.
    + intros i Hi. rewrite <- V1 by exact Hi. rewrite <- P by exact Hi. reflexivity.
  - cbn [wp]. change (negb (RET_DIV_BY_ZERO =r? SUCCESSFUL_RETURN)) with true. cbn [wp]. auto.
Qed.

(** ** 2) null space *)
Lemma tri_ok (tr : bool) (b : arr) : plainH (p_b s) = true -> (nz <= zlen b)%Z ->
  exists rv b', p_backsolveR (N := N) s None tr false b = Ok (rv, b') /\ zlen b' = zlen b /\
    ((rv = SUCCESSFUL_RETURN /\ forall p, (0 <= p < nz)%Z -> matvec nz (utrans tr (triu (q_R (p_b s)) n)) (zn 0 b') p = zn 0 b p) \/ rv = RET_DIV_BY_ZERO /\ 0 < zero).
Proof using I RX zero_nn.
  intros P Lb. unfold p_backsolveR. pose proof D as DD. destruct DD. rewrite d_n, d_z. destruct (RX P) as ((G & DG) & _).
  destruct (backsolveR_gen eps zero infty n nz (q_R (p_b s)) None tr b) as (r1 & a1 & E1 & L1 & _ & P1); [right; exact DG|lia|rcar; nia|lia|exact Logic.I|].
  exists r1, a1. split; [exact E1|]. split; [exact L1|]. destruct P1 as [(-> & P1)|(-> & i & Hi & P1)]; [left; auto|right]. split; [reflexivity|].
  cbv zeta in P1. match type of P1 with Rabs ?x < zero * Rabs ?y => pose proof (Rabs_pos x); pose proof (Rabs_pos y) end. nra.
Qed.
Lemma tri_both (b c d : Z -> R) : plainH (p_b s) = true ->
  (forall p, (0 <= p < nz)%Z -> matvec nz (utrans true (triu (q_R (p_b s)) n)) c p = b p) ->
  (forall p, (0 <= p < nz)%Z -> matvec nz (utrans false (triu (q_R (p_b s)) n)) d p = c p) ->
  forall p, (0 <= p < nz)%Z -> rsum 0 nz (fun k => zhz l0 Hm (ce n (p_Q s)) p k * d k) = b p.
Proof using RX.
  intros P P1 P2 p Hp. destruct (RX P) as ((G & _) & _). rewrite <- P1 by exact Hp. unfold matvec. cbn [utrans].
  rewrite (rsum_ext 0 nz (fun j => _ * c j) (fun k => triu (q_R (p_b s)) n k p * rsum 0 nz (fun j => triu (q_R (p_b s)) n k j * d j))).
  2:{ intros k Hk. f_equal. symmetry. exact (P2 k Hk). }
  rewrite rsum_mv. apply rsum_ext. intros j Hj. f_equal. symmetry. exact (G p j Hp Hj).
Qed.

Definition gbase (r : Z) (xFX A : arr) (i : Z) : R := zn 0 A i + if (r =? 0)%Z then hx xFX i else 0.
(** the whole step on the free variables *)
Definition tfull (dxy dxz : arr) (j : Z) : R := rsum 0 nc (fun p => q j (nz + p)%Z * zn 0 dxy p) + rsum 0 nz (fun p => q j p * zn 0 dxz p).
Lemma cols_z p x : (0 <= p < nz)%Z -> rsum 0 nf (fun i => q i p * rsum 0 nz (fun k => q i k * x k)) = x p.
Proof using I.
  intros Hp. rewrite (rsum_mv nf nz (fun i => q i p) (fun i k => q i k)). rewrite (rsum_ext 0 nz _ (fun k => delta p k * x k)); [now apply rsum_pick|].
  intros k Hk. f_equal. apply (f_cols eps zero infty n m Am s l0 l1 k0 k1 I); pose proof D as [? ? ? ? ? ? ? ? X ?]; lia.
Qed.
Lemma cols_zy p x : (0 <= p < nz)%Z -> rsum 0 nf (fun i => q i p * rsum 0 nc (fun k => q i (nz + k)%Z * x k)) = 0.
Proof using I.
  intros Hp. pose proof D. destruct H. rewrite (rsum_mv nf nc (fun i => q i p) (fun i k => q i (nz + k)%Z)). apply rsum_0. intros k Hk.
  rewrite (f_cols eps zero infty n m Am s l0 l1 k0 k1 I) by lia. rewrite delta_ne by lia. ring.
Qed.
Lemma cols_y p x : (0 <= p < nc)%Z -> rsum 0 nf (fun i => q i (nz + p)%Z * rsum 0 nc (fun k => q i (nz + k)%Z * x k)) = x p.
Proof using I.
  intros Hp. pose proof D. destruct H. rewrite (rsum_mv nf nc (fun i => q i (nz + p)%Z) (fun i k => q i (nz + k)%Z)). rewrite (rsum_ext 0 nc _ (fun k => delta p k * x k)); [now apply rsum_pick|].
  intros k Hk. f_equal. rewrite (f_cols eps zero infty n m Am s l0 l1 k0 k1 I) by lia. unfold delta. destruct (Z.eqb_spec (nz + p) (nz + k)), (Z.eqb_spec p k); try lia; reflexivity.
Qed.
Lemma cols_yz p x : (0 <= p < nc)%Z -> rsum 0 nf (fun i => q i (nz + p)%Z * rsum 0 nz (fun k => q i k * x k)) = 0.
Proof using I.
  intros Hp. pose proof D. destruct H. rewrite (rsum_mv nf nz (fun i => q i (nz + p)%Z) (fun i k => q i k)). apply rsum_0. intros k Hk.
  rewrite (f_cols eps zero infty n m Am s l0 l1 k0 k1 I) by lia. rewrite delta_ne by lia. ring.
Qed.
Lemma qsum_split p f g : rsum 0 nf (fun i => q i p * (f i + g i)) = rsum 0 nf (fun i => q i p * f i) + rsum 0 nf (fun i => q i p * g i).
Proof using. rewrite <- rsum_plus. apply rsum_ext. intros; ring. Qed.
Lemma qsum_scal p c f : rsum 0 nf (fun i => q i p * (c * f i)) = c * rsum 0 nf (fun i => q i p * f i).
Proof using. rewrite <- rsum_scal. apply rsum_ext. intros; ring. Qed.

(** the step solves the null space equations *)
Definition zsolved (rg : Z -> R) (dxy dxz : arr) : Prop :=
  forall p, (0 <= p < nz)%Z -> rsum 0 nf (fun i => q i p * (rg i + rsum 0 nf (fun j => h i j * tfull dxy dxz j))) = 0.
Lemma zsolved_scalar c rg dxy dxz : (forall i j, Hm i j = c * delta i j) ->
  (forall p, (0 <= p < nz)%Z -> c * zn 0 dxz p = - rsum 0 nf (fun i => q i p * rg i)) -> zsolved rg dxy dxz.
Proof using I.
  intros Hc S p Hp. rewrite (rsum_ext 0 nf _ (fun i => q i p * (rg i + c * tfull dxy dxz i))) by (intros i Hi; now rewrite (h_scalar c)).
  rewrite qsum_split, qsum_scal. unfold tfull. rewrite qsum_split. rewrite cols_zy, cols_z by exact Hp. rewrite Rplus_0_l, S by exact Hp. ring.
Qed.
Lemma h_plus x y i : rsum 0 nf (fun j => h i j * (x j + y j)) = rsum 0 nf (fun j => h i j * x j) + rsum 0 nf (fun j => h i j * y j).
Proof using. rewrite <- rsum_plus. apply rsum_ext. intros; ring. Qed.
Lemma zsolved_plain rg (A dxy dxz : arr) : (forall i, (0 <= i < nf)%Z -> zn 0 A i = rg i + rsum 0 nf (fun j => h i j * rsum 0 nc (fun p => q j (nz + p)%Z * zn 0 dxy p))) ->
  (forall p, (0 <= p < nz)%Z -> rsum 0 nz (fun k => zhz l0 Hm (ce n (p_Q s)) p k * zn 0 dxz k) = - rsum 0 nf (fun i => q i p * zn 0 A i)) -> zsolved rg dxy dxz.
Proof using I.
  intros HA S p Hp. rewrite (rsum_ext 0 nf _ (fun i => q i p * (zn 0 A i + rsum 0 nf (fun j => h i j * rsum 0 nz (fun k => q j k * zn 0 dxz k))))).
  2:{ intros i Hi. rewrite HA by exact Hi. unfold tfull. rewrite h_plus. ring. }
  rewrite qsum_split. transitivity (- rsum 0 nz (fun k => zhz l0 Hm (ce n (p_Q s)) p k * zn 0 dxz k) + rsum 0 nz (fun k => zhz l0 Hm (ce n (p_Q s)) p k * zn 0 dxz k)); [|ring].
  f_equal; [rewrite S by exact Hp; ring|].
  rewrite (rsum_ext 0 nf _ (fun i => q i p * rsum 0 nz (fun k => rsum 0 nf (fun j => h i j * q j k) * zn 0 dxz k))) by (intros i Hi; f_equal; now rewrite <- (rsum_mv nf nz (h i) (fun j k => q j k))).
  rewrite (rsum_mv nf nz (fun i => q i p) (fun i k => rsum 0 nf (fun j => h i j * q j k))). apply rsum_ext. intros k Hk. f_equal. symmetry. now apply (f_zhz eps zero infty n Hm s l0 k1).
Qed.

(** the Hessian does not vanish on a nontrivial null space *)
Definition curved : Prop := q_htype (p_b s) = HST_ZERO -> usingReg (p_b s) = false -> (nz <= 0)%Z.
Lemma null_ok bCz bBz r (xFX A tmp dxy dxz : arr) : (nx <= zlen xFX)%Z -> (nf <= zlen A)%Z -> (nf <= zlen tmp)%Z -> (nz <= zlen dxz)%Z ->
  (bBz = true -> forall r, (0 <= r < nx)%Z -> zn 0 xFX r = 0) ->
  (forall p, (0 <= p < nf)%Z -> zn 0 tmp p = rsum 0 nc (fun j => q p (nz + j)%Z * zn 0 dxy j)) ->
  (bCz && bBz = true -> forall j, (0 <= j < nc)%Z -> zn 0 dxy j = 0) ->
  wp (pd_null (N := N) s bCz bBz r xFX A tmp dxz) (fun c => match c with
    | Brk (rv, A', dxz') => zlen (A' : arr) = zlen A /\ zlen (dxz' : arr) = zlen dxz /\
        (rv = RET_UNKNOWN_BUG /\ q_htype (p_b s) = HST_ZERO /\ usingReg (p_b s) = false /\ (0 < nz)%Z \/ rv = RET_STEPDIRECTION_FAILED_CHOLESKY /\ plainH (p_b s) = true /\ 0 < zero)
    | Next (A', dxz') => zlen (A' : arr) = zlen A /\ zlen (dxz' : arr) = zlen dxz /\ zsolved (gbase r xFX A) dxy dxz' /\ curved /\
        if plainH (p_b s) then forall i, (0 <= i < nf)%Z -> zn 0 A' i = gbase r xFX A i + rsum 0 nf (fun j => h i j * zn 0 tmp j) else A' = A
    end).
Proof using I HE RX zero_nn.
  intros Lx LA Lt Ld XZ TM DZ. unfold pd_null. pose proof D as DD. destruct DD. rewrite d_z.
  apply wp_bind. apply (wp_fill (0:R) (fun _ => 0)); [rcar; lia|intros i b Hi Lb; apply wr_ok; rcar; lia|]. intros z0 L0 V0 _.
  destruct (plainH (p_b s)) eqn:PH; cbn [negb].
  2:{ destruct (scalar PH) as (c & Hc & Ec). assert (GB : forall i, (0 <= i < nf)%Z -> gbase r xFX A i = zn 0 A i) by (intros i Hi; unfold gbase; rewrite hx_scalar by auto; destruct (r =? 0)%Z; ring).
      apply wp_bind. eapply wp_mono; [apply (negZt_ok eps zero infty n m Am s l0 l1 k0 k1 I A z0); rcar; lia|]. intros z1 (L1 & V1).
      assert (V1' : forall p, (0 <= p < nz)%Z -> zn 0 z1 p = - rsum 0 nf (fun i => q i p * gbase r xFX A i)).
      { intros p Hp. rewrite V1, V0 by exact Hp. rewrite Rminus_0_l. f_equal. apply rsum_ext. intros i Hi. now rewrite GB. }
      unfold plainH, is_hst in PH. destruct (q_htype (p_b s)) eqn:HT; try discriminate PH; cbn [is_hst].
      - change (is_hst HST_ZERO HST_ZERO) with true. cbn iota. destruct (usingReg (p_b s)) eqn:UR.
        + assert (RP : 0 < q_regVal (p_b s)).
          { unfold usingReg in UR. revert UR. rnum. destruct (Rltb_spec zero (q_regVal (p_b s))); [intros _; lra|discriminate]. }
          apply wp_bind. apply (wp_map (0:R) (fun _ v => v / q_regVal (p_b s))); [rcar; lia|intros i b Hi Lb; rdx; apply wr_ok; rcar; lia|]. intros z2 L2 V2 _. cbn [wp].
          split; [reflexivity|]. split; [rcar; lia|]. split; [|split; [intros _ X; congruence|reflexivity]]. apply (zsolved_scalar c); [exact Hc|]. intros p Hp. rewrite V2, V1' by exact Hp. subst c. field. lra.
        + destruct (Z.ltb_spec 0 nz) as [G|G].
          * cbn [wp]. split; [reflexivity|]. split; [rcar; lia|]. left. auto.
          * cbn [wp]. split; [reflexivity|]. split; [rcar; lia|]. split; [|split; [intros _ _; exact G|reflexivity]]. intros p Hp. lia.
      - change (is_hst HST_IDENTITY HST_ZERO) with false. cbn iota. cbn [wp]. split; [reflexivity|]. split; [rcar; lia|]. split; [|split; [intros X; congruence|reflexivity]].
        apply (zsolved_scalar c); [exact Hc|]. intros p Hp. rewrite V1' by exact Hp. subst c. ring. }
  assert (CV : curved) by (intros X; unfold plainH in PH; rewrite X in PH; discriminate PH). destruct (theH PH) as (M & EM & MO). rewrite EM. cbn [bind]. rewrite d_f, d_x, d_c.
  apply wp_bind. eapply wp_mono with (P := fun A1 : arr => zlen A1 = zlen A /\ forall i, (0 <= i < nf)%Z -> zn 0 A1 i = gbase r xFX A i).
  { unfold gbase. destruct bBz eqn:EB; cbn [negb andb].
    - cbn [wp]. split; [reflexivity|]. intros i Hi. rewrite hx_zero by auto. destruct (r =? 0)%Z; ring.
    - destruct (r =? 0)%Z; [|cbn [wp]; split; [reflexivity|intros; ring]].
      destruct (mo_idx _ _ _ _ _ _ MO _ _ _ _ (n1 (N := N)) xFX A nx nf d_i0 d_v0 d_i1 d_v1 (or_introl eq_refl) Lx LA ltac:(lia) ltac:(lia)) as (y & E & Ly & V & _).
      rewrite E. cbn [wp]. split; [exact Ly|]. intros i Hi. rewrite V by exact Hi. unfold hx. rnum. change (zn 0%Z l0 i) with (zz l0 i). ring. }
  intros A1 (L1 & V1).
  apply wp_bind. eapply wp_mono with (P := fun A2 : arr => zlen A2 = zlen A /\ forall i, (0 <= i < nf)%Z -> zn 0 A2 i = gbase r xFX A i + rsum 0 nf (fun j => h i j * zn 0 tmp j)).
  { assert (LA1 : (nf <= zlen (A1 : arr))%Z) by (rcar; lia).
    destruct ((0 <? nc)%Z && negb (bCz && bBz))%bool eqn:CC.
    - destruct (mo_idx _ _ _ _ _ _ MO _ _ _ _ (n1 (N := N)) tmp A1 nf nf d_i0 d_v0 d_i0 d_v0 (or_introl eq_refl) Lt LA1 ltac:(lia) ltac:(lia)) as (y & E & Ly & V & _).
      rewrite E. cbn [wp]. split; [rcar; lia|]. intros i Hi. rewrite V by exact Hi. rewrite <- V1 by exact Hi. rnum. unfold dh. change (zn 0%Z l0 i) with (zz l0 i). ring_simplify. reflexivity.
    - cbn [wp]. split; [exact L1|]. intros i Hi. rewrite V1 by exact Hi. rewrite (rsum_0 0 nf); [ring|]. intros j Hj. rewrite TM by exact Hj.
      rewrite (rsum_0 0 nc); [ring|]. intros k Hk. destruct (Z.ltb_spec 0 nc) as [G|G]; [|lia]. cbn [andb] in CC. apply negb_false_iff in CC. rewrite DZ by auto. ring. }
  intros A2 (L2 & V2).
  assert (V2' : forall i, (0 <= i < nf)%Z -> zn 0 A2 i = gbase r xFX A i + rsum 0 nf (fun j => h i j * rsum 0 nc (fun p => q j (nz + p)%Z * zn 0 dxy p))).
  { intros i Hi. rewrite V2 by exact Hi. f_equal. apply rsum_ext. intros j Hj. now rewrite TM. }
  destruct (Z.ltb_spec 0 nz) as [G|G].
  2:{ cbn [wp]. split; [exact L2|]. split; [exact L0|]. split; [|split; [exact CV|exact V2]]. intros p Hp. lia. }
  apply wp_bind. eapply wp_mono; [apply (negZt_ok eps zero infty n m Am s l0 l1 k0 k1 I A2 z0); rcar; lia|]. intros z1 (L3 & V3).
  destruct (tri_ok true z1 PH ltac:(rcar; lia)) as (r1 & z2 & E1 & L4 & P1). rewrite E1. cbn [bind].
  destruct P1 as [(-> & P1)|(-> & ZP)].
  2:{ change (negb (RET_DIV_BY_ZERO =r? SUCCESSFUL_RETURN)) with true. cbn [wp]. split; [exact L2|]. split; [rcar; lia|]. right. auto. }
  change (negb (SUCCESSFUL_RETURN =r? SUCCESSFUL_RETURN)) with false. cbn iota.
  destruct (tri_ok false z2 PH ltac:(rcar; lia)) as (r2 & z3 & E2 & L5 & P2). rewrite E2. cbn [bind].
  destruct P2 as [(-> & P2)|(-> & ZP)].
  2:{ change (negb (RET_DIV_BY_ZERO =r? SUCCESSFUL_RETURN)) with true. cbn [wp]. split; [exact L2|]. split; [rcar; lia|]. right. auto. }
  change (negb (SUCCESSFUL_RETURN =r? SUCCESSFUL_RETURN)) with false. cbn [wp]. split; [exact L2|]. split; [rcar; lia|]. split; [|split; [exact CV|exact V2]].
  apply (zsolved_plain _ A2); [exact V2'|]. intros p Hp. rewrite (tri_both (zn 0 z1) (zn 0 z2) (zn 0 z3) PH P1 P2 p Hp). rewrite V3, V0 by exact Hp. ring.
Qed.

(** ** 3) multipliers *)
Definition ysolved (rg : Z -> R) (dxy dxz dy : arr) : Prop :=
  forall p, (0 <= p < nc)%Z -> rsum 0 nc (fun k => t k p * zn 0 dy k) = rsum 0 nf (fun i => q i (nz + p)%Z * (rg i + rsum 0 nf (fun j => h i j * tfull dxy dxz j))).
Lemma mult_ok (rg : Z -> R) (dxy dxz zfr A B dyAC : arr) : (nc <= zlen dxy)%Z -> (nf <= zlen zfr)%Z -> (nf <= zlen A)%Z -> (nc <= zlen B)%Z -> (nc <= zlen dyAC)%Z ->
  ((0 < nz)%Z -> forall p, (0 <= p < nf)%Z -> zn 0 zfr p = rsum 0 nz (fun k => q p k * zn 0 dxz k)) ->
  (if plainH (p_b s) then forall i, (0 <= i < nf)%Z -> zn 0 A i = rg i + rsum 0 nf (fun j => h i j * rsum 0 nc (fun p => q j (nz + p)%Z * zn 0 dxy p)) else forall i, (0 <= i < nf)%Z -> zn 0 A i = rg i) ->
  wp (pd_mult (N := N) s dxy zfr A B dyAC) (fun '(rv, A', B', dy') => zlen (A' : arr) = zlen A /\ zlen (B' : arr) = zlen B /\ zlen (dy' : arr) = zlen dyAC /\
    ((rv = SUCCESSFUL_RETURN /\ ysolved rg dxy dxz dy') \/ rv = RET_DIV_BY_ZERO /\ smallT)).
Proof using I HE eps_nn.
  intros Ldx Lz LA LB Ly ZF VA. unfold pd_mult. pose proof D as DD. destruct DD. rewrite d_f, d_c, d_z.
  apply wp_bind. eapply wp_mono with (P := fun '(A1, B1) => zlen (A1 : arr) = zlen A /\ zlen (B1 : arr) = zlen B /\
     forall p, (0 <= p < nc)%Z -> zn 0 B1 p = rsum 0 nf (fun i => q i (nz + p)%Z * (rg i + rsum 0 nf (fun j => h i j * tfull dxy dxz j)))).
  { destruct (plainH (p_b s)) eqn:PH; cbn [negb].
    - destruct (theH PH) as (M & EM & MO). rewrite EM. cbn [bind].
      apply wp_bind. eapply wp_mono with (P := fun A1 : arr => zlen A1 = zlen A /\ forall i, (0 <= i < nf)%Z -> zn 0 A1 i = rg i + rsum 0 nf (fun j => h i j * tfull dxy dxz j)).
      { unfold tfull. destruct (Z.ltb_spec 0 nz) as [G|G].
        - destruct (mo_idx _ _ _ _ _ _ MO _ _ _ _ (n1 (N := N)) zfr A nf nf d_i0 d_v0 d_i0 d_v0 (or_introl eq_refl) Lz LA ltac:(lia) ltac:(lia)) as (y & E & Ly1 & V & _).
          rewrite E. cbn [wp]. split; [exact Ly1|]. intros i Hi. rewrite V by exact Hi. rewrite VA by exact Hi. rewrite h_plus.
          rewrite (rsum_ext 0 nf (fun j => h i j * rsum 0 nz (fun p => q j p * zn 0 dxz p)) (fun j => h i j * zn 0 zfr j)) by (intros j Hj; now rewrite ZF). rnum. unfold dh. change (zn 0%Z l0 i) with (zz l0 i). ring_simplify. reflexivity.
        - cbn [wp]. split; [reflexivity|]. intros i Hi. rewrite VA by exact Hi. f_equal. apply rsum_ext. intros j Hj. rewrite (rsum_empty 0 nz) by lia. ring. }
      intros A1 (L1 & V1). apply wp_bind. apply (wp_fill (0:R) (fun _ => 0)); [rcar; lia|intros i b Hi Lb; apply wr_ok; rcar; lia|]. intros B1 L2 V2 _.
      apply wp_bind. eapply wp_mono; [apply (Yt_ok eps zero infty n m Am s l0 l1 k0 k1 I A1 B1); rcar; lia|]. intros B2 (L3 & V3). cbn [wp]. split; [exact L1|]. split; [rcar; lia|].
      intros p Hp. rewrite V3, V2 by exact Hp. rewrite Rplus_0_l. apply rsum_ext. intros i Hi. now rewrite V1.
    - destruct (scalar PH) as (c & Hc & Ec).
      apply wp_bind. apply (wp_fill (0:R) (fun j => c * zn 0 dxy j)); [rcar; lia| |].
      { intros j b Hj Lb. subst c. unfold plainH, is_hst in PH. destruct (q_htype (p_b s)) eqn:HT; try discriminate PH.
        - change (is_hst HST_ZERO HST_IDENTITY) with false. cbn iota. destruct (usingReg (p_b s)); [rdx; apply wr_ok; rcar; lia|]. rewrite Rmult_0_l. apply wr_ok; rcar; lia.
        - change (is_hst HST_IDENTITY HST_IDENTITY) with true. cbn iota. rdx. rewrite Rmult_1_l. apply wr_ok; rcar; lia. }
      intros B1 L2 V2 _.
      apply wp_bind. eapply wp_mono; [apply (Yt_ok eps zero infty n m Am s l0 l1 k0 k1 I A B1); rcar; lia|]. intros B2 (L3 & V3). cbn [wp]. split; [reflexivity|]. split; [rcar; lia|].
      intros p Hp. rewrite V3, V2 by exact Hp.
      rewrite (rsum_ext 0 nf (fun i => q i (nz + p)%Z * (rg i + _)) (fun i => q i (nz + p)%Z * (rg i + c * tfull dxy dxz i))) by (intros i Hi; now rewrite (h_scalar c)).
      rewrite qsum_split, qsum_scal. unfold tfull. rewrite qsum_split. rewrite cols_y, cols_yz by exact Hp. rewrite (rsum_ext 0 nf (fun i => q i (nz + p)%Z * zn 0 A i) (fun i => q i (nz + p)%Z * rg i)) by (intros i Hi; now rewrite VA). ring. }
  intros (A1, B1) (L1 & L2 & V).
  destruct (backsolveT_ok eps zero infty s nc (p_sizeT s) B1 true dyAC d_c eq_refl d_T ltac:(lia) ltac:(rcar; lia) ltac:(lia) eps_nn) as (rv & d2 & E & L3 & P). rewrite E. cbn [bind wp].
  split; [exact L1|]. split; [exact L2|]. split; [exact L3|]. destruct P as [(-> & _ & P)|(-> & SM)]; [left|right; auto]. split; [reflexivity|].
  intros p Hp. rewrite <- V by exact Hp. rewrite <- P by exact Hp. reflexivity.
Qed.
End Dir.
End X19.
