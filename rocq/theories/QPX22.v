(** The expensive test for linear independence does not depend on the length of the row. *)
From Verif Require Import Base Types Num Options Indexlist IndexlistProofs Loops RSum LinSpec SafeLib SubjectTo SubjectToProofs SubjectToProofs2
  Flipper PropFlipper Matrices MatLib MatSafe CsLib PropDense PropSparse PropSparse2 LinAlg PropLinAlg QProblemB QPBSafe QPBSafe2 QPBX1 QPBX2 QPBX3 QPBX4 QPBX5 QPBX7 QProblem QProblem2
  QPX1 QPX2 QPX3 QPX4 QPX5 QPX6 QPX7 QPX8 QPX9 QPX10 QPX11 QPX12 QPX13 QPX14 QPX15 QPX16 QPX18 QPX19 QPX20 QPX21.
Local Open Scope R_scope.

Section X22.
Variables eps zero infty : R.
Notation N := (RNumT eps zero infty).
Notation arr := (list R).
Hypothesis eps_nn : 0 <= eps.
Hypothesis zero_0 : zero = 0.
Variable junk : Z -> arr.
Hypothesis J : junk_ok (N := N) junk.

Section Test.
Variables (n m : Z) (Am Hm : Z -> Z -> R) (s : qp N) (l0 l1 k0 k1 : list Z).
Hypothesis I : pinv eps zero infty n m Am s l0 l1 k0 k1.
Hypothesis HE : hess eps zero infty n (p_b s) Hm.
Hypothesis RX : Rexact eps zero infty n s (zlen l0 - zlen k1) l0 Hm.
Hypothesis CW : cwf eps zero infty n m (scr_of (N := N) s).
Hypothesis NR : (0 <= o_numRefinementSteps (p_opts s))%Z.

Notation nf := (zlen l0).
Notation nx := (zlen l1).
Notation nc := (zlen k1).
Notation nz := (zlen l0 - zlen k1)%Z.
Notation q := (dq eps zero infty n s l0).
Notation a := (da Am l0 k1).
Notation h := (dh Hm l0).
Notation D := (mkdims eps zero infty n m Am s l0 l1 k0 k1 I).
Notation curved := (curved eps zero infty s l0 k1).
Notation smallT := (smallT eps zero infty s k1).


(** the system solved along the row g, the other data being zero *)
Definition fsys (g x y w : Z -> R) : Prop :=
  (forall i, (0 <= i < nf)%Z -> g (zz l0 i) + rsum 0 nf (fun j => h i j * x j) - rsum 0 nc (fun k => a k i * y k) = 0) /\
  (forall i, (0 <= i < nc)%Z -> rsum 0 nf (fun j => a i j * x j) = 0) /\
  (forall r, (0 <= r < nx)%Z -> w r = g (zz l1 r) + rsum 0 nf (fun j => Hm (zz l1 r) (zz l0 j) * x j) - rsum 0 nc (fun k => Am (zz k1 k) (zz l1 r) * y k)).
(** the largest change of a variable exceeds e times the largest multiplier *)
Definition beats (e : R) (x y w : Z -> R) : Prop := exists i, (0 <= i < nf)%Z /\ 0 < Rabs (x i) /\ (forall k, (0 <= k < nc)%Z -> e * Rabs (y k) < Rabs (x i)) /\ (forall r, (0 <= r < nx)%Z -> e * Rabs (w r) < Rabs (x i)).

Lemma rows_free y : (forall i, (0 <= i < nf)%Z -> rsum 0 nc (fun k => a k i * y k) = 0) -> forall k, (0 <= k < nc)%Z -> y k = 0.
Proof using I.
  intros E. pose proof D as DD. destruct DD. destruct (pi_tq _ _ _ _ _ _ _ _ _ _ _ I) as (LE & _ & _ & DG).
  assert (T : forall p, (0 <= p < nc)%Z -> rsum 0 nc (fun k => dt eps zero infty s k1 k p * y k) = 0).
  { intros p Hp. rewrite (rsum_ext 0 nc _ (fun k => rsum 0 nf (fun j => q j (nz + p)%Z * a k j) * y k)).
    - rewrite <- (rsum_mv nf nc (fun j => q j (nz + p)%Z) (fun j k => a k j) y). apply rsum_0. intros j Hj. rewrite E by exact Hj. ring.
    - intros k Hk. f_equal. rewrite <- (f_ay eps zero infty n m Am s l0 l1 k0 k1 I k p Hk Hp). apply rsum_ext. intros; ring. }
  assert (S : forall p, (0 <= p)%Z -> forall k, (nc - 1 - p < k < nc)%Z -> (0 <= k)%Z -> y k = 0).
  { apply (natlike_ind (fun p => forall k, (nc - 1 - p < k < nc)%Z -> (0 <= k)%Z -> y k = 0)); [intros; lia|]. intros p Hp IH k Hk Hk0. destruct (Z.eq_dec k (nc - 1 - p)) as [->|]; [|apply IH; lia].
    specialize (T p ltac:(lia)). rewrite (rsum_split 0 (nc - 1 - p) nc) in T by lia. rewrite (rsum_first (nc - 1 - p) nc) in T by lia.
    rewrite (rsum_0 0 (nc - 1 - p)) in T by (intros r Hr; unfold dt, tt; destruct (Z.leb_spec (nc - 1) (r + p)); [lia|ring]).
    rewrite (rsum_0 (nc - 1 - p + 1) nc) in T by (intros r Hr; rewrite IH by lia; ring).
    unfold dt, tt in T. destruct (Z.leb_spec (nc - 1) (nc - 1 - p + p)); [|lia]. specialize (DG (nc - 1 - p)%Z ltac:(lia)).
    replace (p_sizeT s - nc + p)%Z with (p_sizeT s - 1 - (nc - 1 - p))%Z in T by lia. rewrite Rplus_0_l, Rplus_0_r in T. apply Rmult_integral in T as [T|T]; [contradiction|exact T]. }
  intros k Hk. apply (S nc); lia.
Qed.

Lemma fsys_scaled c g x y w g' x' y' w' : curved -> (forall u, (0 <= u < n)%Z -> g' u = c * g u) -> fsys g x y w -> fsys g' x' y' w' ->
  (forall i, (0 <= i < nf)%Z -> x' i = c * x i) /\ (forall k, (0 <= k < nc)%Z -> y' k = c * y k) /\ (forall r, (0 <= r < nx)%Z -> w' r = c * w r).
Proof using I HE RX zero_0.
  intros CV G (A1 & A2 & A3) (B1 & B2 & B3). pose proof D as DD. destruct DD.
  assert (L : forall k (f u v : Z -> R), rsum 0 k (fun j => f j * (u j - c * v j)) = rsum 0 k (fun j => f j * u j) - c * rsum 0 k (fun j => f j * v j)).
  { intros k f u v. rewrite <- rsum_scal, <- rsum_minus. apply rsum_ext. intros; ring. }
  assert (X : forall i, (0 <= i < nf)%Z -> x' i - c * x i = 0).
  { apply (no_move eps zero infty ltac:(lra) n m Am Hm s l0 l1 k0 k1 I HE RX (fun _ => 0) (fun i => x' i - c * x i) (fun k => y' k - c * y k) CV).
    - intros p Hp. apply rsum_0. intros; ring.
    - intros i Hi. rewrite !L. specialize (A1 i Hi). specialize (B1 i Hi). rewrite G in B1 by (apply d_r0; exact Hi). nra.
    - intros i Hi. rewrite L, A2, B2 by exact Hi. ring. }
  assert (Y : forall k, (0 <= k < nc)%Z -> y' k - c * y k = 0).
  { apply rows_free. intros i Hi. rewrite L. specialize (A1 i Hi). specialize (B1 i Hi). rewrite G in B1 by (apply d_r0; exact Hi).
    assert (E : rsum 0 nf (fun j => h i j * (x' j - c * x j)) = 0) by (apply rsum_0; intros j Hj; rewrite X by exact Hj; ring). rewrite L in E. nra. }
  split; [intros i Hi; specialize (X i Hi); lra|]. split; [intros k Hk; specialize (Y k Hk); lra|].
  intros r Hr. rewrite A3, B3 by exact Hr. rewrite G by (apply d_r1; exact Hr).
  assert (E1 : rsum 0 nf (fun j => Hm (zz l1 r) (zz l0 j) * (x' j - c * x j)) = 0) by (apply rsum_0; intros j Hj; rewrite X by exact Hj; ring). rewrite L in E1.
  assert (E2 : rsum 0 nc (fun k => Am (zz k1 k) (zz l1 r) * (y' k - c * y k)) = 0) by (apply rsum_0; intros j Hj; rewrite Y by exact Hj; ring). rewrite L in E2. nra.
Qed.
Lemma beats_scaled c e x y w x' y' w' : 0 < c -> (forall i, (0 <= i < nf)%Z -> x' i = c * x i) -> (forall k, (0 <= k < nc)%Z -> y' k = c * y k) -> (forall r, (0 <= r < nx)%Z -> w' r = c * w r) ->
  beats e x y w <-> beats e x' y' w'.
Proof using.
  intros Hc X Y W. assert (AB : forall v, Rabs (c * v) = c * Rabs v) by (intros v; rewrite Rabs_mult, (Rabs_pos_eq c) by lra; reflexivity).
  split; intros (i & Hi & P & B1 & B2); exists i; (split; [exact Hi|]); rewrite X, AB in * by exact Hi.
  - split; [nra|]. split; [intros k Hk; specialize (B1 k Hk); rewrite Y, AB by exact Hk|intros r Hr; specialize (B2 r Hr); rewrite W, AB by exact Hr]; nra.
  - split; [nra|]. split; [intros k Hk; specialize (B1 k Hk); rewrite Y, AB in B1 by exact Hk|intros r Hr; specialize (B2 r Hr); rewrite W, AB in B2 by exact Hr]; nra.
Qed.

Lemma fullLI_verdict (dg : arr) : zlen dg = n -> 0 <= o_epsLITests (p_opts s) -> ~ smallT -> curved ->
  exists r c x y w, fullLI (N := N) junk dg s = Ok (r, scr_to (N := N) c s) /\ fsys (fun u => zn 0 dg u) x y w /\
    (r = RET_LINEARLY_INDEPENDENT /\ beats (o_epsLITests (p_opts s)) x y w \/ r = RET_LINEARLY_DEPENDENT /\ ~ beats (o_epsLITests (p_opts s)) x y w).
Proof using I HE RX CW NR J eps_nn zero_0.
  intros LG EL NS CV. assert (zero_nn : 0 <= zero) by lra. unfold fullLI. pose proof D as DD. destruct DD. pose proof (zlen_nonneg l0). pose proof (zlen_nonneg l1). pose proof (zlen_nonneg k1).
  pose proof (pi_w _ _ _ _ _ _ _ _ _ _ _ I) as W. assert (En := pw_n _ _ _ _ _ _ _ _ _ _ _ W). assert (Em := pw_m _ _ _ _ _ _ _ _ _ _ _ W).
  rewrite En, Em. set (dim := if (m >? n)%Z then m else n). assert (DM : (n <= dim)%Z /\ (m <= dim)%Z /\ (0 <= dim)%Z) by (unfold dim; destruct (Z.gtb_spec m n); rewrite <- LG; pose proof (zlen_nonneg dg); lia).
  assert (LJ : forall z, (0 <= z)%Z -> zlen (junk z) = z) by exact J.
  destruct (wp_inv (for_up 0 dim (fun i (b : arr) => wr b i (n0 (N := N))) (junk dim)) (fun b => zlen b = dim /\ forall i, (0 <= i < dim)%Z -> zn 0 b i = 0)) as (nul & E0 & Ln & Vn).
  { apply (wp_fill (0:R) (fun _ => 0)); [rewrite LJ; lia|intros i b Hi Lb; rewrite LJ in Lb by lia; apply wr_ok; rcar; lia|]. intros b Lb Vb _. rewrite LJ in Lb by lia. auto. }
  rcar. rewrite E0. cbn [bind]. rewrite d_x, d_f, d_c. set (d := mkS (N := N) dg nul nul nul nul).
  assert (DW : shwf eps zero infty n m d) by (constructor; cbn; lia).
  set (p0 := mkP (N := N) (junk nx) (junk nf) (junk nc) (junk nx)).
  assert (P0 : (nx <= zlen (sp_xFX p0 : arr))%Z /\ (nf <= zlen (sp_xFR p0 : arr))%Z /\ (nc <= zlen (sp_yAC p0 : arr))%Z /\ (nx <= zlen (sp_yFX p0 : arr))%Z) by (unfold p0; cbn; rewrite !LJ by lia; lia).
  destruct P0 as (Q1 & Q2 & Q3 & Q4).
  destruct (wp_inv _ _ (pstep_exact eps zero infty eps_nn zero_nn n m Am Hm s l0 l1 k0 k1 I HE RX d false false DW p0 CW NR Q1 Q2 Q3 Q4)) as (((rv & p') & s') & E & (c & CW' & ->) & (P1 & P2 & P3 & P4) & P).
  destruct P as [(F & _)|(-> & _ & PD)].
  { exfalso. destruct F as [(_ & F)|[(_ & F1 & F2 & F3)|(_ & _ & F)]]; [contradiction| |lra]. specialize (CV F1 F2). lia. }
  rcar. rewrite E. cbn [bind]. change (pAC (scr_to c s)) with (pAC s). change (pFX (scr_to c s)) with (pFX s). change (pFR (scr_to c s)) with (pFR s). change (p_opts (scr_to c s)) with (p_opts s). rewrite d_x, d_f, d_c.
  destruct (maxAbs_ok eps zero infty nc (sp_yAC p') (n0 (N := N)) ltac:(rcar; lia)) as (w1 & M1 & W1 & W1a & W1b). rcar. rewrite M1. cbn [bind].
  destruct (maxAbs_ok eps zero infty nx (sp_yFX p') w1 ltac:(rcar; lia)) as (w2 & M2 & W2 & W2a & W2b). rcar. rewrite M2. cbn [bind].
  destruct (maxAbs_ok eps zero infty nx (sp_xFX p') (n0 (N := N)) ltac:(rcar; lia)) as (z1 & M3 & Z1 & Z1a & Z1b). rcar. rewrite M3. cbn [bind].
  destruct (maxAbs_ok eps zero infty nf (sp_xFR p') z1 ltac:(rcar; lia)) as (z2 & M4 & Z2 & Z2a & Z2b). rcar. rewrite M4. cbn [bind].
  assert (BB : forall i, (0 <= i < n)%Z -> bB eps zero infty s d false i = 0) by (intros i Hi; unfold bB, d; cbn [sh_lb sh_ub]; destruct (is_sts _ _); apply Vn; lia).
  assert (BC : forall i, (0 <= i < m)%Z -> bC eps zero infty s d false i = 0) by (intros i Hi; unfold bC, d; cbn [sh_lbA sh_ubA]; destruct (is_sts _ _); apply Vn; lia).
  assert (FX : forall r, (0 <= r < nx)%Z -> zn 0 (sp_xFX p' : arr) r = 0).
  { intros r Hr. transitivity (bB eps zero infty s d false (zz l1 r)); [|apply BB, d_r1; exact Hr]. destruct PD as [F _ _ _]. now apply F. }
  assert (Z10 : z1 = 0). { destruct Z1b as [Z1b|(i & Hi & Z1b & Lt)]; [exact Z1b|]. rewrite Z1b, FX, Rabs_R0 by exact Hi. reflexivity. }
  subst z1. assert (W0 : 0 <= w1 /\ w1 <= w2) by (revert W1 W2; rnum; lra).
  set (x := fun j => zn 0 (sp_xFR p' : arr) j). set (y := fun k => zn 0 (sp_yAC p' : arr) k). set (w := fun k => zn 0 (sp_yFX p' : arr) k).
  assert (FS : fsys (fun u => zn 0 dg u) x y w).
  { destruct PD as [_ EG EB EM]. split; [|split]; intros i Hi.
    - specialize (EG i Hi). unfold hx in EG. rewrite (rsum_0 0 nx) in EG by (intros r Hr; rewrite FX by exact Hr; ring). rewrite Rplus_0_r in EG. exact EG.
    - specialize (EB i Hi). unfold ax in EB. rewrite (rsum_0 0 nx) in EB by (intros r Hr; rewrite FX by exact Hr; ring). rewrite BC in EB by (apply d_rc; exact Hi). unfold x. lra.
    - specialize (EM i Hi). rewrite (rsum_0 0 nx) in EM by (intros r Hr; rewrite FX by exact Hr; ring). rewrite Rplus_0_r in EM. exact EM. }
  assert (BT : o_epsLITests (p_opts s) * w2 < z2 <-> beats (o_epsLITests (p_opts s)) x y w).
  { set (e := o_epsLITests (p_opts s)) in *. revert W1 W1b Z2 Z2b. rnum. intros W1 W1b Z2 Z2b. split.
    - intros B. assert (0 <= e * w2) by (apply Rmult_le_pos; lra). destruct Z2b as [Z2b|(i & Hi & Z2b & _)]; [lra|]. exists i. unfold x. split; [exact Hi|]. rewrite <- Z2b. split; [lra|].
      split; intros k Hk; (eapply Rle_lt_trans; [|exact B]); apply Rmult_le_compat_l; try exact EL; [unfold y; specialize (W1a k Hk); lra|unfold w; exact (W2a k Hk)].
    - intros (i & Hi & P & B1 & B2). specialize (Z2a i Hi). change (Rabs (x i) <= z2) in Z2a. destruct W2b as [->|(r & Hr & -> & _)]; [|specialize (B2 r Hr); unfold w in B2; lra].
      destruct W1b as [->|(k & Hk & -> & _)]; [rewrite Rmult_0_r; lra|specialize (B1 k Hk); unfold y in B1; lra]. }
  change (SUCCESSFUL_RETURN =r? SUCCESSFUL_RETURN) with true. cbv iota.
  destruct (Rltb_spec (o_epsLITests (p_opts s) * w2) z2) as [B|B].
  - exists RET_LINEARLY_INDEPENDENT, c, x, y, w. split; [|split; [exact FS|left; split; [reflexivity|now apply BT]]].
    rnum. destruct (Rltb_spec (o_epsLITests (p_opts s) * w2) z2); [reflexivity|contradiction].
  - exists RET_LINEARLY_DEPENDENT, c, x, y, w. split; [|split; [exact FS|right; split; [reflexivity|now rewrite <- BT]]].
    rnum. destruct (Rltb_spec (o_epsLITests (p_opts s) * w2) z2); [contradiction|reflexivity].
Qed.
End Test.
End X22.
