(** Additions that first make sure the working set stays independent. *)
From Verif Require Import Base Types Num Options Indexlist IndexlistProofs Loops RSum LinSpec SafeLib SubjectTo SubjectToProofs SubjectToProofs2
  Flipper PropFlipper Matrices MatLib MatSafe CsLib PropDense PropSparse PropSparse2 LinAlg PropLinAlg QProblemB QPBSafe QPBSafe2 QPBX1 QPBX2 QPBX3 QPBX4 QPBX5 QPBX7 QProblem QProblem2
  QPX1 QPX2 QPX3 QPX4 QPX5 QPX6 QPX7 QPX8 QPX9 QPX10 QPX11 QPX12 QPX13 QPX14 QPX15 QPX16 QPX18 QPX19 QPX20 QPX21.
Local Open Scope R_scope.

Section X17.
Variables eps zero infty : R.
Notation N := (RNumT eps zero infty).
Notation arr := (list R).
Hypothesis zero_0 : zero = 0.
Variable junk : Z -> arr.
Hypothesis J : junk_ok (N := N) junk.
Notation pwf := (pwf eps zero infty).
Notation pfl := (pfl eps zero infty).
Notation pinv := (pinv eps zero infty).
Notation pframe := (pframe eps zero infty).
Notation Rvalid := (Rvalid eps zero infty).
Notation Rexact := (Rexact eps zero infty).

Lemma pinv_y n m Am (s : qp N) l0 l1 k0 k1 y : pinv n m Am s l0 l1 k0 k1 -> zlen y = (n + m)%Z -> pinv n m Am (up_b (set_q_y (N := N) y) s) l0 l1 k0 k1.
Proof.
  intros [W F Ly FA TQ] L. constructor; [|destruct F; constructor; assumption|exact L|exact FA|exact TQ]. destruct W; constructor; assumption.
Qed.
Lemma pframe_y (s : qp N) y : pframe s (up_b (set_q_y (N := N) y) s).
Proof. unfold pframe. cbn. repeat (split; [reflexivity|]). now left. Qed.

(** the test may have used the scratch space *)
Notation cwf := (cwf eps zero infty).
Definition sres (n m : Z) (s s1 : qp N) : Prop := s1 = s \/ exists c, cwf n m (scr_of (N := N) s) /\ cwf n m c /\ s1 = scr_to (N := N) c s.
Lemma sres_same n m s s1 : sres n m s s1 -> p_Q s1 = p_Q s /\ p_T s1 = p_T s /\ p_sizeT s1 = p_sizeT s /\ p_opts s1 = p_opts s /\ q_R (p_b s1) = q_R (p_b s) /\ q_htype (p_b s1) = q_htype (p_b s).
Proof. intros [->|(c & _ & _ & ->)]; repeat (split; [reflexivity|]); reflexivity. Qed.
Lemma sres_pinv n m Am s s1 l0 l1 k0 k1 : sres n m s s1 -> pinv n m Am s l0 l1 k0 k1 -> pinv n m Am s1 l0 l1 k0 k1.
Proof.
  intros [->|(c & _ & _ & ->)] I; [exact I|]. destruct I as [W F Ly FA TQ]. constructor; [|destruct F; constructor; assumption|exact Ly|exact FA|exact TQ]. destruct W; constructor; assumption.
Qed.
Lemma cwf_len n m s s1 : cwf n m (scr_of (N := N) s) -> cwf n m (scr_of (N := N) s1) -> scr_len eps zero infty s1 = scr_len eps zero infty s.
Proof.
  intros [A1 A2 A3 A4 A5 A6 A7] [B1 B2 B3 B4 B5 B6 B7]. cbn in *. unfold scr_len. rcar. congruence.
Qed.
Lemma pframe_cwf n m s s1 : pframe s s1 -> cwf n m (scr_of (N := N) s) -> cwf n m (scr_of (N := N) s1).
Proof.
  intros (_ & _ & _ & _ & _ & _ & E & _) [A1 A2 A3 A4 A5 A6 A7]. cbn in *. unfold scr_len in E. rcar. inversion E. constructor; cbn; rcar; congruence.
Qed.
Lemma sres_frame n m s s1 : sres n m s s1 -> pframe s s1.
Proof.
  intros [->|(c & C1 & C2 & ->)]; [apply pframe_refl|]. unfold QPX16.pframe. repeat (split; [reflexivity|]). split; [|now left]. apply (cwf_len n m); [exact C1|]. destruct C2. constructor; assumption.
Qed.
Lemma sres_plain n m s s1 : sres n m s s1 -> plainH (p_b s1) = plainH (p_b s).
Proof. intros S. eapply pframe_plain, sres_frame; eauto. Qed.
Lemma sres_valid n m s s1 nz : sres n m s s1 -> Rvalid n s nz -> Rvalid n s1 nz.
Proof. intros S V P. rewrite (sres_plain _ _ _ _ S) in P. destruct (sres_same _ _ _ _ S) as (_ & _ & _ & _ & -> & _). now apply V. Qed.
Lemma sres_exact n m s s1 nz l Hm : sres n m s s1 -> Rexact n s nz l Hm -> Rexact n s1 nz l Hm.
Proof. intros S V P. rewrite (sres_plain _ _ _ _ S) in P. destruct (sres_same _ _ _ _ S) as (-> & _ & _ & _ & -> & _). now apply V. Qed.

(** after the exchange: one more null space direction, along which a does not vanish *)
Record exch (n m : Z) (Am Hm : Z -> Z -> R) (a : Z -> R) (s s1 : qp N) (l0 k0 k1 lp lx kx kp : list Z) : Prop := {
  ex_inv : pinv n m Am s1 lp lx kx kp;
  ex_fr : pframe s s1;
  ex_nz : (zlen lp - zlen kp = zlen l0 - zlen k1 + 1)%Z;
  ex_l : forall u, In u l0 -> In u lp;
  ex_k : forall c, In c k0 -> In c kx;
  ex_ind : exists p, (0 <= p < zlen lp - zlen kp)%Z /\ comb lp a (ce n (p_Q s1)) p <> 0;
  ex_dep : (forall p, (0 <= p < zlen l0 - zlen k1)%Z -> comb l0 a (ce n (p_Q s)) p = 0) -> forall v, inkernel lp kp Am v -> lsum lp (fun u => a u * v u) = 0 ->
    forall u, In u lp -> v u = rsum 0 (zlen l0 - zlen k1) (fun p => comb l0 v (ce n (p_Q s)) p * ce n (p_Q s1) u p);
  ex_fac : factor n (zlen l0 - zlen k1) (q_R (p_b s)) (zhz l0 Hm (ce n (p_Q s))) -> factor n (zlen l0 - zlen k1) (q_R (p_b s)) (zhz lp Hm (ce n (p_Q s1)));
  ex_gr : grown eps zero infty n (zlen l0 - zlen k1) s s1 l0 lp Hm
}.

Lemma exch_C n m Am Hm (s s1 : qp N) l0 l1 k0 k1 c0 a x : pinv n m Am s l0 l1 k0 k1 -> In c0 k1 -> pinv n m Am s1 l0 l1 (k0 ++ [c0]) (spec_remove k1 c0) -> pframe s s1 ->
  (forall v q, In v l0 -> (0 <= q < zlen l0 - zlen k1)%Z -> ce n (p_Q s1) v q = ce n (p_Q s) v q) -> grown eps zero infty n (zlen l0 - zlen k1) s s1 l0 l0 Hm ->
  range_fit n l0 k1 Am (p_Q s) a x -> x c0 <> 0 -> exch n m Am Hm a s s1 l0 k0 k1 l0 l1 (k0 ++ [c0]) (spec_remove k1 c0).
Proof.
  intros I Hin I1 FR COL GR RF Nx. pose proof (pi_tq _ _ _ _ _ _ _ _ _ _ _ I) as TQ. pose proof (pi_tq _ _ _ _ _ _ _ _ _ _ _ I1) as TQ1.
  pose proof (pi_w _ _ _ _ _ _ _ _ _ _ _ I) as W.
  assert (ND : NoDup l0) by exact (rep_NoDup _ _ (wf_ina _ _ _ (pw_b _ _ _ _ _ _ _ _ _ _ _ W))). assert (NDk : NoDup k1) by exact (rep_NoDup _ _ (wf_act _ _ _ (pw_c _ _ _ _ _ _ _ _ _ _ _ W))).
  pose proof (spec_remove_len k1 c0 Hin) as Ls. assert (SR : forall c, In c (spec_remove k1 c0) <-> In c k1 /\ c <> c0) by (intros c; now apply spec_remove_In).
  constructor; auto.
  - lia.
  - intros c Hc. apply in_or_app. now left.
  - destruct (exchange_C n (p_sizeT s) l0 k1 Am (p_Q s) (p_T s) ND TQ (spec_remove k1 c0) c0 (p_Q s1) (p_T s1) NDk Hin SR Ls) with (a := a) (x := x) as (p & Hp & Np); auto.
    { destruct FR as (_ & <- & _). exact TQ1. }
    exists p. split; [lia|exact Np].
  - intros D v IK Z0 u Hu. assert (IK0 : inkernel l0 k1 Am v) by (eapply kernel_back_C with (a := a) (x := x) (k' := spec_remove k1 c0) (c0 := c0); eauto).
    rewrite (kernel_coef n (p_sizeT s) l0 k1 Am (p_Q s) (p_T s) v ND TQ IK0 u Hu) at 1. apply rsum_ext. intros p Hp. now rewrite COL.
  - apply factor_ext. intros p q Hp Hq. apply zhz_ext; intros v Hv; symmetry; now apply COL.
Qed.

Lemma exch_B n m Am Hm (s s1 : qp N) l0 l1 k0 k1 j a x : pinv n m Am s l0 l1 k0 k1 -> In j l1 -> pinv n m Am s1 (l0 ++ [j]) (spec_remove l1 j) k0 k1 -> pframe s s1 ->
  (forall q, (0 <= q < zlen l0 - zlen k1)%Z -> ce n (p_Q s1) j q = 0 /\ forall v, In v l0 -> ce n (p_Q s1) v q = ce n (p_Q s) v q) -> grown eps zero infty n (zlen l0 - zlen k1) s s1 l0 (l0 ++ [j]) Hm ->
  range_fit n l0 k1 Am (p_Q s) a x -> a j - lsum k1 (fun c => x c * Am c j) <> 0 -> exch n m Am Hm a s s1 l0 k0 k1 (l0 ++ [j]) (spec_remove l1 j) k0 k1.
Proof.
  intros I Hin I1 FR COL GR RF Nx. pose proof (pi_tq _ _ _ _ _ _ _ _ _ _ _ I) as TQ. pose proof (pi_tq _ _ _ _ _ _ _ _ _ _ _ I1) as TQ1.
  pose proof (pi_w _ _ _ _ _ _ _ _ _ _ _ I) as W. pose proof (pw_b _ _ _ _ _ _ _ _ _ _ _ W) as Wb.
  assert (ND : NoDup l0) by exact (rep_NoDup _ _ (wf_ina _ _ _ Wb)).
  assert (NI : ~ In j l0). { intros H. apply (wf_in0 _ _ _ Wb) in H as (_ & H). apply (wf_in1 _ _ _ Wb) in Hin as (_ & Hin). rewrite H in Hin. discriminate Hin. }
  assert (EL : zlen (l0 ++ [j]) = (zlen l0 + 1)%Z) by (rewrite zlen_app; reflexivity).
  assert (TQ1' : tqf n (p_sizeT s) (l0 ++ [j]) k1 Am (p_Q s1) (p_T s1)) by (destruct FR as (_ & <- & _); exact TQ1).
  constructor; auto.
  - lia.
  - intros u Hu. apply in_or_app. now left.
  - destruct (exchange_B n (p_sizeT s) l0 k1 Am (p_Q s) (p_T s) ND TQ j (p_Q s1) (p_T s1) NI TQ1' COL a x RF Nx) as (p & Hp & Np). exists p. split; [lia|exact Np].
  - intros D v IK Z0 u Hu. destruct (kernel_back_B n (p_sizeT s) l0 k1 Am (p_Q s) (p_T s) ND TQ j a x v RF Nx D IK Z0) as (Vj & IK0).
    apply in_app_or in Hu as [Hu|[<-|[]]].
    + rewrite (kernel_coef n (p_sizeT s) l0 k1 Am (p_Q s) (p_T s) v ND TQ IK0 u Hu) at 1. apply rsum_ext. intros p Hp. destruct (COL p Hp) as (_ & ->); auto.
    + rewrite Vj. symmetry. apply rsum_0. intros p Hp. destruct (COL p Hp) as (-> & _). ring.
  - apply factor_ext. intros p q Hp Hq. rewrite zhz_app_zero by (intros u [<-|[]]; split; apply COL; auto). apply zhz_ext; intros v Hv; symmetry; now apply COL.
Qed.

(** ** Which index leaves *)
Lemma resolveLI_ok n m Am Hm (s : qp N) l0 l1 k0 k1 number slot v isB (xiB xiC : arr) a x : pinv n m Am s l0 l1 k0 k1 -> hdata eps zero infty n s Hm -> 0 < eps -> p_noUpdate s = false ->
  Rvalid n s (zlen l0 - zlen k1) -> o_enableDropInfeasibles (p_opts s) = false -> 0 < o_epsDen (p_opts s) -> (0 <= slot < n + m)%Z -> zlen xiB = zlen l1 -> zlen xiC = zlen k1 ->
  range_fit n l0 k1 Am (p_Q s) a x -> (forall i, (0 <= i < zlen k1)%Z -> x (zz k1 i) = zn 0 xiC i) ->
  (forall i, (0 <= i < zlen l1)%Z -> a (zz l1 i) - lsum k1 (fun c => x c * Am c (zz l1 i)) = zn 0 xiB i) ->
  wp (resolveLI (N := N) junk number slot v isB xiB xiC s) (fun '(r, s') =>
    (r = RET_ENSURELI_FAILED_NOINDEX /\ s' = up_b (set_q_infeasible (N := N) true) s) \/
    (r = SUCCESSFUL_RETURN /\ exists lp lx kx kp, exch n m Am Hm a s s' l0 k0 k1 lp lx kx kp)).
Proof.
  intros I HD EP NU RV ND ED Hs LB LC RF XC XB. pose proof I as [W F Ly FA TQ]. destruct W as [En Em Wb Wc LQ LR ES LT WA].
  destruct (range_b _ _ _ Wb) as (_ & Rg1). destruct (range_b _ _ _ Wc) as (_ & Rk1). destruct (len_b _ _ _ Wb) as (Ln0 & Ln1).
  change (st_n (p_bounds s)) with (pV s) in *. change (st_n (p_cons s)) with (pC s) in *. rewrite En in *. rewrite Em in *.
  assert (EX : pFX s = zlen l1) by exact (rep_len _ _ (wf_act _ _ _ Wb)). assert (EC : pAC s = zlen k1) by exact (rep_len _ _ (wf_act _ _ _ Wc)).
  destruct TQ as (LE & _). pose proof (zlen_nonneg l1) as P1. pose proof (zlen_nonneg k1) as P2.
  assert (M0 : (0 <= m)%Z) by (rewrite <- (pf_lbA _ _ _ _ _ _ F); apply zlen_nonneg). pose proof (zlen_nonneg l0) as P0.
  assert (LJ : zlen (junk n) = n) by (apply J; lia).
  unfold resolveLI. rewrite EX, EC, En. cbv zeta.
  assert (RC : forall i, (0 <= i < zlen k1)%Z -> rd (p_AC s) i = Ok (zz k1 i)) by (intros i Hi; apply (rep_rd1 _ _ _ Wc); lia).
  assert (RX : forall i, (0 <= i < zlen l1)%Z -> rd (p_FX s) i = Ok (zz l1 i)) by (intros i Hi; apply (rep_rd1 _ _ _ Wb); lia).
  apply wp_bind. apply wp_for_len.
  { intros i w Hi Lw. rewrite RC by lia. cbn [bind]. assert (Hk : (0 <= zz k1 i < m)%Z) by (apply Rk1, zn_In; lia). repeat sstep; rcar; lia. }
  intros num Lnum. apply wp_bind.
  destruct (ratio_ok eps zero infty (p_cons s) k0 k1 num xiC (o_epsNum (p_opts s)) (o_epsDen (p_opts s)) (o_maxDualJump (p_opts s)) Wc) as (ymin & kC & E1 & KC); [rcar; lia|lia|exact ED|].
  match goal with |- wp ?m _ => replace m with (Ok (ymin, kC)) by (symmetry; exact E1) end. cbn [wp]. apply wp_bind. apply wp_for_len.
  { intros i w Hi Lw. rewrite RX by lia. cbn [bind]. assert (Hk : (0 <= zz l1 i < n)%Z) by (apply Rg1, zn_In; lia). repeat sstep; rcar; lia. }
  intros num' Lnum'. apply wp_bind.
  destruct (ratio_ok eps zero infty (p_bounds s) l0 l1 num' xiB (o_epsNum (p_opts s)) (o_epsDen (p_opts s)) ymin Wb) as (ymin' & kB & E2 & KB); [rcar; lia|lia|exact ED|].
  match goal with |- wp ?m _ => replace m with (Ok (ymin', kB)) by (symmetry; exact E2) end. cbn [wp].
  destruct ((0 <=? kB)%Z || (0 <=? kC)%Z) eqn:OR.
  2:{ rewrite ND. cbn [wp]. left. auto. }
  apply wp_bind. apply wp_for_len.
  { intros i w Hi Lw. rewrite RC by lia. cbn [bind]. assert (Hk : (0 <= zz k1 i < m)%Z) by (apply Rk1, zn_In; lia). repeat sstep; rcar; lia. }
  intros y1 Ly1. apply wp_bind. apply wp_for_len.
  { intros i w Hi Lw. rewrite RX by lia. cbn [bind]. assert (Hk : (0 <= zz l1 i < n)%Z) by (apply Rg1, zn_In; lia). repeat sstep; rcar; lia. }
  intros y2 Ly2. apply wp_bind. apply wp_wrv; [rcar; lia|]. intros y3 Ly3.
  assert (L3 : zlen y3 = (n + m)%Z) by (rcar; lia). set (s1 := up_b (set_q_y (N := N) y3) s).
  assert (I1 : pinv n m Am s1 l0 l1 k0 k1) by (apply pinv_y; auto). assert (FR1 : pframe s s1) by apply pframe_y.
  assert (HD1 : hdata eps zero infty n s1 Hm) by (eapply pframe_hdata; eauto).
  assert (FIN : forall s2 y, pframe s1 s2 -> pframe s (up_b (set_q_y (N := N) y) s2)) by (intros; eapply pframe_trans; [exact FR1|]; eapply pframe_trans; [eassumption|]; apply pframe_y).
  destruct (Z.leb_spec 0 kB) as [PB|PB].
  - destruct KB as [KB|(i & Hi & EB & NB)]; [lia|]. assert (Hin : In kB l1) by (rewrite EB; apply zn_In; lia).
    destruct (remB_step eps zero infty zero_0 junk J n m Am Hm s1 l0 l1 k0 k1 kB I1 HD1 EP NU Hin RV) as (s2 & E & I2 & FR2 & Ey & COL & GR).
    apply wp_bind. rewrite E. cbn [wp]. cbn [negb rv_eqb]. rewrite Ey. change (q_y (p_b s1)) with y3.
    apply wp_bind. apply wp_wrv; [pose proof (Rg1 _ Hin); pose proof (zlen_nonneg (p_lbA s)); pose proof (pf_lbA _ _ _ _ _ _ F); rcar; lia|]. intros y4 Ly4. cbn [wp]. right. split; [reflexivity|].
    exists (l0 ++ [kB]), (spec_remove l1 kB), k0, k1. apply (exch_B n m Am Hm s _ l0 l1 k0 k1 kB a x); auto.
    + apply pinv_y; [exact I2|rcar; lia].
    + rewrite EB. rewrite XB by exact Hi. exact NB.
  - destruct (Z.leb_spec 0 kC) as [PC|PC]; [|discriminate OR].
    destruct KC as [KC|(i & Hi & EB & NB)]; [lia|]. assert (Hin : In kC k1) by (rewrite EB; apply zn_In; lia).
    destruct (remC_step eps zero infty zero_0 junk J n m Am Hm s1 l0 l1 k0 k1 kC I1 HD1 EP NU Hin RV) as (s2 & E & I2 & FR2 & Ey & COL & GR).
    apply wp_bind. rewrite E. cbn [wp]. cbn [negb rv_eqb]. rewrite Ey. change (q_y (p_b s1)) with y3.
    apply wp_bind. apply wp_wrv; [pose proof (Rk1 _ Hin); pose proof (zlen_nonneg (q_lb (p_b s))); pose proof (pf_lb _ _ _ _ _ _ F); rcar; lia|]. intros y4 Ly4. cbn [wp]. right. split; [reflexivity|].
    exists l0, l1, (k0 ++ [kC]), (spec_remove k1 kC). apply (exch_C n m Am Hm s _ l0 l1 k0 k1 kC a x); auto.
    + apply pinv_y; [exact I2|rcar; lia].
    + rewrite EB. rewrite XC by exact Hi. exact NB.
Qed.

(** ** The coefficients of the dependence *)
Definition xi_of (k1 : list Z) (xiC : arr) (c : Z) : R := zn 0 xiC (spec_pos k1 c).
Lemma xi_sum k1 (xiC : arr) f : NoDup k1 -> lsum k1 (fun c => xi_of k1 xiC c * f c) = rsum 0 (zlen k1) (fun q => f (zz k1 q) * zn 0 xiC q).
Proof.
  intros ND. rewrite <- (rsum_list k1 (fun c => xi_of k1 xiC c * f c)). apply rsum_ext. intros q Hq. unfold xi_of. change (zn 0%Z k1 q) with (zz k1 q). rewrite spec_pos_unique by auto. ring.
Qed.

Lemma xi_ok n m Am (s : qp N) l0 l1 k0 k1 (t xi : arr) a : pinv n m Am s l0 l1 k0 k1 -> 0 <= eps -> (zlen k1 <= zlen t)%Z -> zlen xi = zlen k1 ->
  (forall i, (0 <= i < zlen k1)%Z -> zn 0 t i = comb l0 a (ce n (p_Q s)) (zlen l0 - zlen k1 + i)) ->
  exists r xiC, backsolveT (N := N) s t true xi = Ok (r, xiC) /\ zlen xiC = zlen k1 /\
    (r = SUCCESSFUL_RETURN -> range_fit n l0 k1 Am (p_Q s) a (xi_of k1 xiC) /\ ~ smallT eps zero infty s k1).
Proof.
  intros [W F Ly FA TQ] EP Lt Lx V. destruct W as [En Em Wb Wc LQ LR ES LT WA].
  assert (EC : pAC s = zlen k1) by exact (rep_len _ _ (wf_act _ _ _ Wc)). assert (NDk : NoDup k1) by exact (rep_NoDup _ _ (wf_act _ _ _ Wc)).
  destruct (len_b _ _ _ Wb) as (Ln0 & _). destruct (len_b _ _ _ Wc) as (_ & Lk1). change (st_n (p_bounds s)) with (pV s) in *. change (st_n (p_cons s)) with (pC s) in *. rewrite En in *. rewrite Em in *.
  destruct TQ as (LE & OQ & AT & DG). pose proof (zlen_nonneg k1) as P2.
  destruct (backsolveT_ok eps zero infty s (zlen k1) (p_sizeT s) t true xi EC eq_refl LT) as (r & xiC & E & L & K); auto; try lia.
  exists r, xiC. split; [exact E|]. split; [lia|]. intros ->. destruct K as [(_ & BG & K)|(K & _)]; [|discriminate K]. split; [|intros (i & Hi & SM); specialize (BG i Hi); lra].
  intros p Hp. rewrite comb_lin, xi_sum by exact NDk. apply Rminus_diag_eq.
  replace p with (zlen l0 - zlen k1 + (p - (zlen l0 - zlen k1)))%Z at 1 by lia. rewrite <- V by lia. rewrite <- K by lia. apply rsum_ext. intros q Hq. f_equal.
  change (zz k1 q) with (zn 0%Z k1 q). rewrite AT by lia. unfold tt.
  destruct (Z.leb_spec (zlen k1 - 1) (q + (p - (zlen l0 - zlen k1)))), (Z.leb_spec (zlen l0 - 1) (q + p)); try lia; [|reflexivity]. f_equal. lia.
Qed.

Definition licfg (n m : Z) (Hm : Z -> Z -> R) (l0 k1 : list Z) (s : qp N) : Prop :=
  (o_enableFullLITests (p_opts s) = true -> Rexact n s (zlen l0 - zlen k1) l0 Hm /\ cwf n m (scr_of (N := N) s) /\ (0 <= o_numRefinementSteps (p_opts s))%Z) /\ o_enableDropInfeasibles (p_opts s) = false /\ 0 <= o_epsLITests (p_opts s) /\ 0 < o_epsDen (p_opts s).

Lemma sgn_cases v : (if is_sts v ST_LOWER then n1 (N := N) else nm1 (N := N)) = 1 \/ (if is_sts v ST_LOWER then n1 (N := N) else nm1 (N := N)) = -1.
Proof. destruct (is_sts v ST_LOWER); [left|right]; rnum; reflexivity. Qed.

Lemma comb_scal l c a F p : comb l (fun u => c * a u) F p = c * comb l a F p.
Proof. unfold comb. rewrite <- lsum_scal. apply lsum_ext. intros; ring. Qed.

(** the verdict, whichever test is used *)
Lemma verdict_C n m Am Hm (s : qp N) l0 l1 k0 k1 number : pinv n m Am s l0 l1 k0 k1 -> hdata eps zero infty n s Hm -> 0 < eps -> licfg n m Hm l0 k1 s -> (0 <= number < m)%Z ->
  exists r s1, addConstraint_checkLI (N := N) junk number s = Ok (r, s1) /\ sres n m s s1 /\ r <> RET_INDEXLIST_CORRUPTED /\
    ((r = RET_LINEARLY_INDEPENDENT /\ exists p, (0 <= p < zlen l0 - zlen k1)%Z /\ comb l0 (Am number) (ce n (p_Q s)) p <> 0) \/
     (r <> RET_LINEARLY_INDEPENDENT /\ (o_epsLITests (p_opts s) = 0 -> plainH (p_b s) = true -> smallT eps zero infty s k1 \/ forall p, (0 <= p < zlen l0 - zlen k1)%Z -> comb l0 (Am number) (ce n (p_Q s)) p = 0))).
Proof.
  intros I HD EP (FU & _ & PL & _) Rn. destruct (o_enableFullLITests (p_opts s)) eqn:NF.
  - destruct (FU eq_refl) as (RX & CW & NR). pose proof I as [W F Ly (M & EA & OA) TQ]. assert (En := pw_n _ _ _ _ _ _ _ _ _ _ _ W). assert (N0 : (0 <= n)%Z) by (rewrite <- (pf_lb _ _ _ _ _ _ F); apply zlen_nonneg).
    assert (LJ : zlen (junk n) = n) by (apply J; exact N0).
    destruct (af_rowN _ _ _ _ _ _ _ OA number (junk n) Rn ltac:(lia)) as (dg & E1 & L1 & V1). unfold addConstraint_checkLI, p_theA. rewrite EA. cbn [bind]. rewrite NF, En. rcar. rewrite E1. cbn [bind].
    destruct (fullLI_ok eps zero infty ltac:(lra) ltac:(lra) junk J n m Am Hm s l0 l1 k0 k1 I (proj1 HD) RX CW NR dg ltac:(lia) PL) as (r & c & E & CW' & NC & K).
    destruct (range_b _ _ _ (pw_b _ _ _ _ _ _ _ _ _ _ _ W)) as (Rg0 & _). change (st_n (p_bounds s)) with (pV s) in Rg0. rewrite En in Rg0.
    assert (CE : forall p, comb l0 (fun u => zn 0 dg u) (ce n (p_Q s)) p = comb l0 (Am number) (ce n (p_Q s)) p) by (intros p; unfold comb; apply lsum_ext; intros u Hu; rewrite V1 by (apply Rg0; exact Hu); reflexivity).
    exists r, (scr_to (N := N) c s). split; [exact E|]. split; [right; eauto|]. split; [exact NC|]. destruct K as [(-> & p & Hp & Np)|(NI & K)]; [left|right].
    + split; [reflexivity|]. exists p. split; [exact Hp|]. now rewrite <- CE.
    + split; [exact NI|]. intros E0 P. destruct (K E0 zero_0 P) as [S|A]; [now left|right]. intros p Hp. rewrite <- CE. now apply A.
  - destruct (checkLI_C eps zero infty junk J n m Am s l0 l1 k0 k1 number I NF Rn) as (r & E & K). exists r, s. split; [exact E|]. split; [now left|].
    destruct K as [(-> & p & Hp & B)|(-> & B)]; (split; [discriminate|]); [left|right].
    + split; [reflexivity|]. exists p. split; [exact Hp|]. intros Z0. rewrite Z0, Rabs_R0 in B. assert (0 <= lsum l0 (fun u => Am number u * Am number u)) by (apply lsum_nonneg; intros; nra). nra.
    + split; [discriminate|]. intros E0 _. right. intros p Hp. specialize (B p Hp). cbv beta in B. rewrite E0, Rmult_0_l in B. destruct (Req_dec (comb l0 (Am number) (ce n (p_Q s)) p) 0) as [|Nz]; [assumption|]. exfalso. apply B. now apply Rabs_pos_lt.
Qed.
Lemma verdict_B n m Am Hm (s : qp N) l0 l1 k0 k1 number : pinv n m Am s l0 l1 k0 k1 -> hdata eps zero infty n s Hm -> 0 < eps -> licfg n m Hm l0 k1 s -> In number l0 ->
  exists r s1, addBound_checkLI (N := N) junk number s = Ok (r, s1) /\ sres n m s s1 /\ r <> RET_INDEXLIST_CORRUPTED /\
    ((r = RET_LINEARLY_INDEPENDENT /\ exists p, (0 <= p < zlen l0 - zlen k1)%Z /\ ce n (p_Q s) number p <> 0) \/
     (r <> RET_LINEARLY_INDEPENDENT /\ (o_epsLITests (p_opts s) = 0 -> plainH (p_b s) = true -> smallT eps zero infty s k1 \/ forall p, (0 <= p < zlen l0 - zlen k1)%Z -> ce n (p_Q s) number p = 0))).
Proof.
  intros I HD EP (FU & _ & PL & _) Hin. pose proof I as [W F Ly FA TQ]. assert (En := pw_n _ _ _ _ _ _ _ _ _ _ _ W). pose proof (pw_b _ _ _ _ _ _ _ _ _ _ _ W) as Wb.
  destruct (range_b _ _ _ Wb) as (Rg0 & _). change (st_n (p_bounds s)) with (pV s) in Rg0. rewrite En in Rg0. pose proof (Rg0 _ Hin) as Rn. assert (ND : NoDup l0) by exact (rep_NoDup _ _ (wf_ina _ _ _ Wb)).
  destruct (o_enableFullLITests (p_opts s)) eqn:NF.
  - destruct (FU eq_refl) as (RX & CW & NR). assert (N0 : (0 <= n)%Z) by lia.
    assert (LJ : zlen (junk n) = n) by (apply J; exact N0). unfold addBound_checkLI. rewrite NF, En.
    destruct (wp_inv (for_up 0 n (fun i (b : arr) => wr b i (n0 (N := N))) (junk n)) (fun b => zlen b = n /\ forall i, (0 <= i < n)%Z -> zn 0 b i = 0)) as (b0 & E0 & L0 & V0).
    { apply (wp_fill (0:R) (fun _ => 0)); [rewrite LJ; lia|intros i b Hi Lb; rewrite LJ in Lb; apply wr_ok; rcar; lia|]. intros b Lb Vb _. rewrite LJ in Lb. auto. }
    rcar. rewrite E0. cbn [bind]. rewrite (@wr_ok R) by lia. cbn [bind]. set (dg := zupd b0 number 1).
    assert (L1 : zlen dg = n) by (unfold dg; now rewrite zlen_zupd). assert (V1 : forall u, In u l0 -> zn 0 dg u = delta u number).
    { intros u Hu. pose proof (Rg0 _ Hu) as Ru. unfold dg, delta. destruct (Z.eqb_spec u number) as [->|Ne]; [apply zn_zupd_eq; lia|rewrite zn_zupd_ne by lia; now apply V0]. }
    destruct (fullLI_ok eps zero infty ltac:(lra) ltac:(lra) junk J n m Am Hm s l0 l1 k0 k1 I (proj1 HD) RX CW NR dg L1 PL) as (r & c & E & CW' & NC & K).
    assert (CE : forall p, comb l0 (fun u => zn 0 dg u) (ce n (p_Q s)) p = ce n (p_Q s) number p).
    { intros p. rewrite <- (comb_delta l0 number (ce n (p_Q s)) p ND Hin). unfold comb. apply lsum_ext. intros u Hu. now rewrite V1. }
    exists r, (scr_to (N := N) c s). split; [exact E|]. split; [right; eauto|]. split; [exact NC|]. destruct K as [(-> & p & Hp & Np)|(NI & K)]; [left|right].
    + split; [reflexivity|]. exists p. split; [exact Hp|]. now rewrite <- CE.
    + split; [exact NI|]. intros E1 P. destruct (K E1 zero_0 P) as [S|A]; [now left|right]. intros p Hp. rewrite <- CE. now apply A.
  - destruct (checkLI_B eps zero infty junk n m Am s l0 l1 k0 k1 number I NF Rn) as (r & E & K). exists r, s. split; [exact E|]. split; [now left|].
    destruct K as [(-> & p & Hp & B)|(-> & B)]; (split; [discriminate|]); [left|right].
    + split; [reflexivity|]. exists p. split; [exact Hp|]. intros Z0. rewrite Z0, Rabs_R0 in B. lra.
    + split; [discriminate|]. intros E0 _. right. intros p Hp. specialize (B p Hp). cbv beta in B. rewrite E0 in B. destruct (Req_dec (ce n (p_Q s) number p) 0) as [|Nz]; [assumption|]. exfalso. apply B. now apply Rabs_pos_lt.
Qed.

Lemma ensureLI_C n m Am Hm (so : qp N) l0 l1 k0 k1 number v : pinv n m Am so l0 l1 k0 k1 -> hdata eps zero infty n so Hm -> 0 < eps -> p_noUpdate so = false ->
  Rvalid n so (zlen l0 - zlen k1) -> licfg n m Hm l0 k1 so -> In number k0 ->
  wp (addConstraint_ensureLI (N := N) junk number v so) (fun '(r, s') => exists s, sres n m so s /\ (
    (r = SUCCESSFUL_RETURN /\ s' = s /\ exists p, (0 <= p < zlen l0 - zlen k1)%Z /\ comb l0 (Am number) (ce n (p_Q s)) p <> 0) \/
    (r = RET_ENSURELI_FAILED_TQ /\ s' = s) \/
    (r = RET_ENSURELI_FAILED_NOINDEX /\ s' = up_b (set_q_infeasible (N := N) true) s) \/
    (r = SUCCESSFUL_RETURN /\ (o_epsLITests (p_opts s) = 0 -> plainH (p_b s) = true -> forall p, (0 <= p < zlen l0 - zlen k1)%Z -> comb l0 (Am number) (ce n (p_Q s)) p = 0) /\
     exists sg lp lx kx kp, (sg = 1 \/ sg = -1) /\ exch n m Am Hm (fun u => sg * Am number u) s s' l0 k0 k1 lp lx kx kp))).
Proof.
  intros I HD EP NU RV LI Hin.
  assert (Rn : (0 <= number < m)%Z) by (rewrite <- (pw_m _ _ _ _ _ _ _ _ _ _ _ (pi_w _ _ _ _ _ _ _ _ _ _ _ I)); apply (proj1 (range_b _ _ _ (pw_c _ _ _ _ _ _ _ _ _ _ _ (pi_w _ _ _ _ _ _ _ _ _ _ _ I)))); exact Hin).
  unfold addConstraint_ensureLI. destruct (verdict_C n m Am Hm so l0 l1 k0 k1 number I HD EP LI Rn) as (r & s & E & SR & NC & K). rewrite E. cbn [bind]. clear E.
  destruct (sres_same _ _ _ _ SR) as (EQ & ET & EsT & EO & _). rewrite <- EQ, <- EO, <- (sres_plain _ _ _ _ SR) in K.
  assert (SMT : smallT eps zero infty so k1 -> smallT eps zero infty s k1) by (unfold smallT; now rewrite ET, EsT).
  apply (sres_pinv n m Am so s l0 l1 k0 k1 SR) in I. pose proof (sres_frame _ _ _ _ SR) as FS. apply (pframe_hdata _ _ _ _ _ _ _ FS) in HD. rewrite <- (pframe_noUpdate _ _ _ _ _ FS) in NU. apply (sres_valid _ _ _ _ _ SR) in RV.
  destruct LI as (_ & NDr & PL & PD). rewrite <- EO in NDr, PL, PD. assert (K' : r <> RET_INDEXLIST_CORRUPTED -> (r =r? RET_INDEXLIST_CORRUPTED) = false) by (intros X; destruct (r =r? RET_INDEXLIST_CORRUPTED) eqn:Y; [apply rv_eqb_eq in Y; contradiction|reflexivity]). rewrite (K' NC).
  match goal with |- wp ?x (fun '(r, s') => exists s, sres n m so s /\ @?Q r s' s) => eapply wp_mono with (P := fun '(r, s') => Q r s' s); [|intros [r1 s1] C; exists s; split; [exact SR|exact C]] end. cbv beta.
  destruct K as [(-> & IND)|(NI & B)].
  { change (RET_LINEARLY_INDEPENDENT =r? RET_LINEARLY_INDEPENDENT) with true. cbn [wp]. left. auto. }
  assert (K2 : (r =r? RET_LINEARLY_INDEPENDENT) = false) by (destruct (r =r? RET_LINEARLY_INDEPENDENT) eqn:Y; [apply rv_eqb_eq in Y; contradiction|reflexivity]). rewrite K2. clear K' K2 NC NI r.
  assert (B' : o_epsLITests (p_opts s) = 0 -> plainH (p_b s) = true -> ~ smallT eps zero infty s k1 -> forall p, (0 <= p < zlen l0 - zlen k1)%Z -> comb l0 (Am number) (ce n (p_Q s)) p = 0) by (intros E0 P NS; destruct (B E0 P) as [SM|A]; [exfalso; apply NS, SMT, SM|exact A]). clear B.
  pose proof I as [W F Ly (M & EA & OA) TQ]. destruct W as [En Em Wb Wc LQ LR ES LT WA].
  destruct (range_b _ _ _ Wb) as (Rg0 & Rg1). destruct (range_b _ _ _ Wc) as (Rk0 & Rk1). destruct (len_b _ _ _ Wb) as (Ln0 & Ln1).
  change (st_n (p_bounds s)) with (pV s) in *. change (st_n (p_cons s)) with (pC s) in *. rewrite En in *. rewrite Em in *.
  assert (EF : pFR s = zlen l0) by exact (rep_len _ _ (wf_ina _ _ _ Wb)). assert (EX : pFX s = zlen l1) by exact (rep_len _ _ (wf_act _ _ _ Wb)). assert (EC : pAC s = zlen k1) by exact (rep_len _ _ (wf_act _ _ _ Wc)).
  assert (NDk : NoDup k1) by exact (rep_NoDup _ _ (wf_act _ _ _ Wc)). assert (LE : (zlen k1 <= zlen l0)%Z) by apply TQ. pose proof (zlen_nonneg l1) as P1. pose proof (zlen_nonneg k1) as P2.
  assert (N0 : (0 <= n)%Z) by (rewrite <- (pf_lb _ _ _ _ _ _ F); apply zlen_nonneg).
  unfold p_theA. rewrite EA. cbn [bind]. cbv zeta. set (sg := if is_sts v ST_LOWER then n1 (N := N) else nm1 (N := N)).
  assert (SG : sg = 1 \/ sg = -1) by apply sgn_cases. assert (SG' : sg = n1 (N := N) \/ sg = nm1 (N := N)) by (unfold sg; destruct (is_sts v ST_LOWER); auto).
  rewrite EF, EC, EX, ?En. unfold pZ. rewrite EF, EC.
  assert (LJ : forall z, (0 <= z)%Z -> zlen (junk z) = z) by exact J.
  destruct (af_row _ _ _ _ _ _ _ OA number sg (p_free s) l0 (junk (zlen l0)) (wf_ina _ _ _ Wb) Rg0 Rn ltac:(rewrite LJ; lia) SG') as (row & E1 & L1 & V1).
  rcar. rewrite E1. cbn [bind]. set (a := fun u => sg * Am number u).
  assert (X : exists r xiC, (if (0 <? zlen k1)%Z then
      t <- for_up 0 (zlen k1) (fun i a =>
             a <- wr a i (n0 (N := N)) ;;
             for_up 0 (zlen l0) (fun j a =>
               jj <- rd (p_FR s) j ;; w <- rd a i ;; q <- rd (p_Q s) (jj + n * (zlen l0 - zlen k1 + i)) ;; x <- rd row j ;;
               wr a i (w + q * x)) a) (junk (zlen k1)) ;;
      backsolveT (N := N) s t true (junk (zlen k1))
    else Ok (SUCCESSFUL_RETURN, junk (zlen k1))) = Ok (r, xiC) /\ zlen xiC = zlen k1 /\ (r = SUCCESSFUL_RETURN -> range_fit n l0 k1 Am (p_Q s) a (xi_of k1 xiC) /\ ~ smallT eps zero infty s k1)).
  { destruct (Z.ltb_spec 0 (zlen k1)) as [Pk|Pk].
    2:{ exists SUCCESSFUL_RETURN, (junk (zlen k1)). split; [reflexivity|]. split; [apply LJ; lia|]. intros _. split; [intros p Hp; lia|intros (i & Hi & _); lia]. }
    match goal with |- context [bind ?m _] => destruct (wp_inv m (fun t => zlen t = zlen k1 /\ forall i, (0 <= i < zlen k1)%Z -> zn 0 t i = comb l0 a (ce n (p_Q s)) (zlen l0 - zlen k1 + i))) as (t & Et & Lt & Vt) end.
    { apply wp_for_up with (I := fun i t => zlen t = zlen k1 /\ forall i', (0 <= i' < i)%Z -> zn 0 t i' = comb l0 a (ce n (p_Q s)) (zlen l0 - zlen k1 + i')); auto.
      - split; [apply LJ; lia|intros; lia].
      - intros i t Hi (Lt & Vt). rewrite (@wr_ok R) by lia. cbn [bind].
        apply wp_for_up with (I := fun j t' => zlen t' = zlen k1 /\ (forall i', (0 <= i' < i)%Z -> zn 0 t' i' = zn 0 t i') /\ zn 0 t' i = rsum 0 j (fun q => ce n (p_Q s) (zz l0 q) (zlen l0 - zlen k1 + i) * zn 0 row q)).
        + apply zlen_nonneg.
        + rewrite zlen_zupd. split; [exact Lt|]. split; [intros i' Hi'; now rewrite zn_zupd_ne by lia|]. rewrite zn_zupd_eq by lia. rewrite rsum_empty by lia. rnum. reflexivity.
        + intros j t' Hj (Lt' & A1 & A2). assert (Hv : (0 <= zz l0 j < n)%Z) by (apply Rg0, zn_In; lia). assert (Hx : (0 <= zz l0 j + n * (zlen l0 - zlen k1 + i) < n * n)%Z) by nia.
          unfold p_FR, p_free. rewrite (rep_rd _ _ _ Wb j Hj). cbn [bind]. change (zn 0%Z l0 j) with (zz l0 j). rewrite (rd_ok 0) by lia. cbn [bind]. rcar. rewrite (rd_ok 0) by lia. cbn [bind]. rewrite (rd_ok 0) by (rewrite L1, LJ; lia). cbn [bind].
          rewrite (@wr_ok R) by lia. cbn [wp]. rewrite zlen_zupd. split; [exact Lt'|]. split; [intros i' Hi'; rewrite zn_zupd_ne by lia; now apply A1|]. rewrite zn_zupd_eq by lia. rewrite A2, rsum_last by lia. reflexivity.
        + intros t' (Lt' & A1 & A2). split; [exact Lt'|]. intros i' Hi'. destruct (Z.eq_dec i' i) as [->|]; [|rewrite A1 by lia; apply Vt; lia].
          rewrite A2. unfold comb. rewrite <- (rsum_list l0). apply rsum_ext. intros q Hq. rewrite V1 by lia. unfold a. change (zz l0 q) with (zn 0%Z l0 q). ring. }
    rewrite Et. cbn [bind]. apply (xi_ok n m Am s l0 l1 k0 k1 t (junk (zlen k1)) a I); [lra|apply Z.eq_le_incl; symmetry; exact Lt|apply LJ; lia|exact Vt]. }
  destruct X as (r & xiC & EXi & LC & RF). match goal with |- wp (bind ?m _) _ => replace m with (Ok (r, xiC)) by (symmetry; exact EXi) end. cbn [bind].
  destruct (rv_eqb r SUCCESSFUL_RETURN) eqn:Er; cbn [negb]; [|cbn [wp]; auto]. apply rv_eqb_eq in Er as ->. destruct (RF eq_refl) as (RF1 & NSM). clear RF. rename RF1 into RF.
  destruct (af_row _ _ _ _ _ _ _ OA number sg (p_fixed s) l1 (junk (zlen l1)) (wf_act _ _ _ Wb) Rg1 Rn ltac:(rewrite LJ; lia) SG') as (xB & E2 & L2 & V2).
  rcar. rewrite E2. cbn [bind].
  destruct (af_tidx _ _ _ _ _ _ _ OA (p_active s) k1 (p_fixed s) l1 (nm1 (N := N)) (n1 (N := N)) xiC xB (zlen k1) (zlen l1) (wf_act _ _ _ Wc) Rk1 (wf_act _ _ _ Wb) Rg1) as (xiB & E3 & L3 & V3 & _); auto; try lia.
  { rewrite L2, LJ; lia. }
  rcar. rewrite E3. cbn [bind].
  eapply wp_mono; [apply (resolveLI_ok n m Am Hm s l0 l1 k0 k1 number (n + number) v false xiB xiC a (xi_of k1 xiC)); auto; try lia|].
  - rewrite L3, L2. apply LJ. lia.
  - intros i Hi. unfold xi_of. rewrite spec_pos_unique by auto. reflexivity.
  - intros i Hi. rewrite xi_sum by exact NDk. rewrite V3 by lia. rewrite V2 by lia. unfold a. change (zn 0%Z l1 i) with (zz l1 i). rnum. change (Rlit 1 0) with 1. try change (Rlit (-1) 0) with (-1).
    assert (XX : forall y z : R, y - z = 1 * y + -1 * z) by (intros; ring). apply XX.
  - intros [r s'] [(-> & ->)|(-> & lp & lx & kx & kp & EXC)].
    + right. right. left. auto.
    + right. right. right. split; [reflexivity|]. split.
      * intros E0 P. now apply B'.
      * exists sg, lp, lx, kx, kp. auto.
Qed.

Lemma ensureLI_B n m Am Hm (so : qp N) l0 l1 k0 k1 number v : pinv n m Am so l0 l1 k0 k1 -> hdata eps zero infty n so Hm -> 0 < eps -> p_noUpdate so = false ->
  Rvalid n so (zlen l0 - zlen k1) -> licfg n m Hm l0 k1 so -> In number l0 ->
  wp (addBound_ensureLI (N := N) junk number v so) (fun '(r, s') => exists s, sres n m so s /\ (
    (r = SUCCESSFUL_RETURN /\ s' = s /\ exists p, (0 <= p < zlen l0 - zlen k1)%Z /\ ce n (p_Q s) number p <> 0) \/
    (r = RET_ENSURELI_FAILED_TQ /\ s' = s) \/
    (r = RET_ENSURELI_FAILED_NOINDEX /\ s' = up_b (set_q_infeasible (N := N) true) s) \/
    (r = SUCCESSFUL_RETURN /\ (o_epsLITests (p_opts s) = 0 -> plainH (p_b s) = true -> forall p, (0 <= p < zlen l0 - zlen k1)%Z -> ce n (p_Q s) number p = 0) /\
     exists sg lp lx kx kp, (sg = 1 \/ sg = -1) /\ exch n m Am Hm (fun u => sg * delta u number) s s' l0 k0 k1 lp lx kx kp))).
Proof.
  intros I HD EP NU RV LI Hin.
  unfold addBound_ensureLI. destruct (verdict_B n m Am Hm so l0 l1 k0 k1 number I HD EP LI Hin) as (r & s & E & SR & NC & K). rewrite E. cbn [bind]. clear E.
  destruct (sres_same _ _ _ _ SR) as (EQ & ET & EsT & EO & _). rewrite <- EQ, <- EO, <- (sres_plain _ _ _ _ SR) in K.
  assert (SMT : smallT eps zero infty so k1 -> smallT eps zero infty s k1) by (unfold smallT; now rewrite ET, EsT).
  apply (sres_pinv n m Am so s l0 l1 k0 k1 SR) in I. pose proof (sres_frame _ _ _ _ SR) as FS. apply (pframe_hdata _ _ _ _ _ _ _ FS) in HD. rewrite <- (pframe_noUpdate _ _ _ _ _ FS) in NU. apply (sres_valid _ _ _ _ _ SR) in RV.
  destruct LI as (_ & NDr & PL & PD). rewrite <- EO in NDr, PL, PD. assert (K' : r <> RET_INDEXLIST_CORRUPTED -> (r =r? RET_INDEXLIST_CORRUPTED) = false) by (intros X; destruct (r =r? RET_INDEXLIST_CORRUPTED) eqn:Y; [apply rv_eqb_eq in Y; contradiction|reflexivity]). rewrite (K' NC).
  match goal with |- wp ?x (fun '(r, s') => exists s, sres n m so s /\ @?Q r s' s) => eapply wp_mono with (P := fun '(r, s') => Q r s' s); [|intros [r1 s1] C; exists s; split; [exact SR|exact C]] end. cbv beta.
  destruct K as [(-> & IND)|(NI & B)].
  { change (RET_LINEARLY_INDEPENDENT =r? RET_LINEARLY_INDEPENDENT) with true. cbn [wp]. left. auto. }
  assert (K2 : (r =r? RET_LINEARLY_INDEPENDENT) = false) by (destruct (r =r? RET_LINEARLY_INDEPENDENT) eqn:Y; [apply rv_eqb_eq in Y; contradiction|reflexivity]). rewrite K2. clear K' K2 NC NI r.
  assert (B' : o_epsLITests (p_opts s) = 0 -> plainH (p_b s) = true -> ~ smallT eps zero infty s k1 -> forall p, (0 <= p < zlen l0 - zlen k1)%Z -> ce n (p_Q s) number p = 0) by (intros E0 P NS; destruct (B E0 P) as [SM|A]; [exfalso; apply NS, SMT, SM|exact A]). clear B.
  pose proof I as [W F Ly (M & EA & OA) TQ]. destruct W as [En Em Wb Wc LQ LR ES LT WA].
  destruct (range_b _ _ _ Wb) as (Rg0 & Rg1). destruct (range_b _ _ _ Wc) as (Rk0 & Rk1). destruct (len_b _ _ _ Wb) as (Ln0 & Ln1).
  change (st_n (p_bounds s)) with (pV s) in *. change (st_n (p_cons s)) with (pC s) in *. rewrite En in *. rewrite Em in *.
  assert (EF : pFR s = zlen l0) by exact (rep_len _ _ (wf_ina _ _ _ Wb)). assert (EX : pFX s = zlen l1) by exact (rep_len _ _ (wf_act _ _ _ Wb)). assert (EC : pAC s = zlen k1) by exact (rep_len _ _ (wf_act _ _ _ Wc)).
  assert (ND : NoDup l0) by exact (rep_NoDup _ _ (wf_ina _ _ _ Wb)).
  assert (NDk : NoDup k1) by exact (rep_NoDup _ _ (wf_act _ _ _ Wc)). pose proof (Rg0 _ Hin) as Rn. assert (LE : (zlen k1 <= zlen l0)%Z) by apply TQ. pose proof (zlen_nonneg l1) as P1. pose proof (zlen_nonneg k1) as P2.
  assert (M0 : (0 <= m)%Z) by (rewrite <- (pf_lbA _ _ _ _ _ _ F); apply zlen_nonneg).
  set (sg := if is_sts v ST_LOWER then n1 (N := N) else nm1 (N := N)). assert (SG : sg = 1 \/ sg = -1) by apply sgn_cases.
  rewrite EC, EX, ?En. unfold pZ. rewrite EF, EC. assert (LJ : forall z, (0 <= z)%Z -> zlen (junk z) = z) by exact J. set (a := fun u => sg * delta u number).
  assert (X : exists r xiC, (if (0 <? zlen k1)%Z then
      t <- for_up 0 (zlen k1) (fun i a =>
             q <- rd (p_Q s) (number + n * (zlen l0 - zlen k1 + i)) ;; wr a i (if is_sts v ST_LOWER then q else - q)) (junk (zlen k1)) ;;
      backsolveT (N := N) s t true (junk (zlen k1))
    else Ok (SUCCESSFUL_RETURN, junk (zlen k1))) = Ok (r, xiC) /\ zlen xiC = zlen k1 /\ (r = SUCCESSFUL_RETURN -> range_fit n l0 k1 Am (p_Q s) a (xi_of k1 xiC) /\ ~ smallT eps zero infty s k1)).
  { destruct (Z.ltb_spec 0 (zlen k1)) as [Pk|Pk].
    2:{ exists SUCCESSFUL_RETURN, (junk (zlen k1)). split; [reflexivity|]. split; [apply LJ; lia|]. intros _. split; [intros p Hp; lia|intros (i & Hi & _); lia]. }
    match goal with |- context [bind ?m _] => destruct (wp_inv m (fun t => zlen t = zlen k1 /\ forall i, (0 <= i < zlen k1)%Z -> zn 0 t i = comb l0 a (ce n (p_Q s)) (zlen l0 - zlen k1 + i))) as (t & Et & Lt & Vt) end.
    { apply (wp_fill 0 (fun i => sg * ce n (p_Q s) number (zlen l0 - zlen k1 + i))); [rewrite LJ; lia| |].
      - intros i t Hi Lt. assert (Hx : (0 <= number + n * (zlen l0 - zlen k1 + i) < n * n)%Z) by nia. rcar. rewrite (rd_ok 0) by lia. cbn [bind]. rewrite LJ in Lt by lia. rewrite (@wr_ok R) by lia. f_equal. f_equal.
        change (zn 0 (p_Q s) (number + n * (zlen l0 - zlen k1 + i))) with (ce n (p_Q s) number (zlen l0 - zlen k1 + i)). unfold sg. destruct (is_sts v ST_LOWER); rnum; ring.
      - intros t Lt Vt _. rewrite LJ in Lt by lia. split; [exact Lt|]. intros i Hi. rewrite Vt by lia. unfold a. rewrite comb_scal, comb_delta by auto. reflexivity. }
    rewrite Et. cbn [bind]. apply (xi_ok n m Am s l0 l1 k0 k1 t (junk (zlen k1)) a I); [lra|apply Z.eq_le_incl; symmetry; exact Lt|apply LJ; lia|exact Vt]. }
  destruct X as (r & xiC & EXi & LC & RF). match goal with |- wp (bind ?m _) _ => replace m with (Ok (r, xiC)) by (symmetry; exact EXi) end. cbn [bind].
  destruct (rv_eqb r SUCCESSFUL_RETURN) eqn:Er; cbn [negb]; [|cbn [wp]; auto]. apply rv_eqb_eq in Er as ->. destruct (RF eq_refl) as (RF1 & NSM). clear RF. rename RF1 into RF.
  unfold p_theA. rewrite EA. cbn [bind].
  destruct (af_tidx _ _ _ _ _ _ _ OA (p_active s) k1 (p_fixed s) l1 (nm1 (N := N)) (n0 (N := N)) xiC (junk (zlen l1)) (zlen k1) (zlen l1) (wf_act _ _ _ Wc) Rk1 (wf_act _ _ _ Wb) Rg1) as (xiB & E3 & L3 & V3 & _); auto; try lia.
  { rcar. lia. }
  { pose proof (LJ (zlen l1) P1) as LL. rcar. lia. }
  rcar. rewrite E3. cbn [bind].
  eapply wp_mono; [apply (resolveLI_ok n m Am Hm s l0 l1 k0 k1 number number v true xiB xiC a (xi_of k1 xiC)); auto; try lia|].
  - rewrite L3. apply LJ. lia.
  - intros i Hi. unfold xi_of. rewrite spec_pos_unique by auto. reflexivity.
  - intros i Hi. rewrite xi_sum by exact NDk. rewrite V3 by lia. unfold a. change (zn 0%Z l1 i) with (zz l1 i).
    assert (NE : zz l1 i <> number). { intros H. assert (Hl : In (zz l1 i) l1) by (apply zn_In; lia). rewrite H in Hl. apply (wf_in1 _ _ _ Wb) in Hl as (_ & Hl). apply (wf_in0 _ _ _ Wb) in Hin as (_ & Hi0). rewrite Hi0 in Hl. discriminate Hl. }
    unfold delta. destruct (Z.eqb_spec (zz l1 i) number); [contradiction|]. rnum. assert (XX : forall c y z : R, c * 0 - z = 0 * y + -1 * z) by (intros; ring). apply XX.
  - intros [r s'] [(-> & ->)|(-> & lp & lx & kx & kp & EXC)].
    + right. right. left. auto.
    + right. right. right. split; [reflexivity|]. split.
      * intros E0 P. now apply B'.
      * exists sg, lp, lx, kx, kp. auto.
Qed.

(** ** The two additions, independence made sure of *)
Lemma getNumberOfType_ok (b : subjectTo) a0 a1 t : st_wf b a0 a1 -> exists z, st_getNumberOfType b t = Ok z.
Proof.
  intros W. unfold st_getNumberOfType. destruct (st_n b =? 0)%Z; [eauto|]. match goal with |- exists z, ?m = _ => destruct (wp_inv m (fun _ => True)) as (z & E & _) end; [|eauto].
  apply wp_for_inv with (I := fun _ => True); auto. intros i z Hi _. rewrite (rd_ok ST_UNBOUNDED) by (rewrite (wf_type _ _ _ W); lia). exact Logic.I.
Qed.

Lemma exch_valid n m Am Hm a (s s1 : qp N) l0 l1 k0 k1 lp lx kx kp : exch n m Am Hm a s s1 l0 k0 k1 lp lx kx kp -> pinv n m Am s l0 l1 k0 k1 -> Rvalid n s1 (zlen lp - zlen kp).
Proof.
  intros E _ P. rewrite (ex_nz _ _ _ _ _ _ _ _ _ _ _ _ _ _ E). rewrite (pframe_plain _ _ _ _ _ (ex_fr _ _ _ _ _ _ _ _ _ _ _ _ _ _ E)) in P. apply (ex_gr _ _ _ _ _ _ _ _ _ _ _ _ _ _ E P).
Qed.

Lemma pinv_infeas n m Am (s : qp N) l0 l1 k0 k1 : pinv n m Am s l0 l1 k0 k1 -> pinv n m Am (up_b (set_q_infeasible (N := N) true) s) l0 l1 k0 k1.
Proof. intros [W F Ly FA TQ]. constructor; [|destruct F; constructor; assumption|exact Ly|exact FA|exact TQ]. destruct W; constructor; assumption. Qed.

(** the state reached by an operation, whatever it returns *)
Definition reached (n m : Z) (Am Hm : Z -> Z -> R) (guard : Prop) (s s' : qp N) (l0 k1 : list Z) (here : list Z -> list Z -> Prop) : Prop := exists l0' l1' k0' k1',
  pinv n m Am s' l0' l1' k0' k1' /\ pframe s s' /\ Rvalid n s' (zlen l0' - zlen k1') /\
  (Rexact n s (zlen l0 - zlen k1) l0 Hm -> guard -> Rexact n s' (zlen l0' - zlen k1') l0' Hm) /\ here l1' k1'.

Lemma reached_pre n m Am Hm (guard : Prop) so s s' l0 k1 here : sres n m so s -> reached n m Am Hm guard s s' l0 k1 here -> reached n m Am Hm guard so s' l0 k1 here.
Proof.
  intros SR (l0' & l1' & k0' & k1' & I & FR & V & X & H). exists l0', l1', k0', k1'. split; [exact I|]. split; [eapply pframe_trans; [eapply sres_frame; exact SR|exact FR]|]. split; [exact V|]. split; [|exact H].
  intros RX. apply X. eapply sres_exact; eauto.
Qed.

Lemma addConstraint_LI n m Am Hm (so : qp N) l0 l1 k0 k1 number v : pinv n m Am so l0 l1 k0 k1 -> hdata eps zero infty n so Hm -> 0 < eps -> Rvalid n so (zlen l0 - zlen k1) -> licfg n m Hm l0 k1 so ->
  In number k0 -> is_active v = true ->
  wp (p_addConstraint (N := N) junk number v true true so) (fun '(r, s') =>
    reached n m Am Hm (posdef n Hm \/ o_epsLITests (p_opts so) = 0) so s' l0 k1 (fun _ k1' => r = SUCCESSFUL_RETURN -> In number k1')).
Proof.
  intros I HD EP RV CF Hin Hv. pose proof I as [W F Ly FA TQ]. pose proof (pw_c _ _ _ _ _ _ _ _ _ _ _ W) as Wc.
  assert (Same : forall r, r <> SUCCESSFUL_RETURN -> reached n m Am Hm (posdef n Hm \/ o_epsLITests (p_opts so) = 0) so so l0 k1 (fun _ k1' => r = SUCCESSFUL_RETURN -> In number k1')).
  { intros r Nr. exists l0, l1, k0, k1. split; [exact I|]. split; [apply pframe_refl|]. split; [exact RV|]. split; [auto|]. intros; contradiction. }
  unfold p_addConstraint, addConstraint_check. pose proof Hin as Hin'. apply (wf_in0 _ _ _ Wc) in Hin' as (Hr & HI). rewrite (getStatus_ok _ _ _ _ Wc Hr). cbn [bind]. rewrite HI.
  change (negb (is_sts ST_INACTIVE ST_INACTIVE)) with false. cbv iota.
  destruct (getNumberOfType_ok (p_cons so) k0 k1 ST_UNBOUNDED Wc) as (nuc & ->). cbn [bind].
  destruct (_ =? nuc)%Z; [cbn [bind wp]; apply Same; discriminate|].
  destruct (p_noUpdate so) eqn:NU; cbn [bind]; [cbn [wp]; apply Same; discriminate|]. cbn [andb].
  apply wp_bind. eapply wp_mono; [apply (ensureLI_C n m Am Hm so l0 l1 k0 k1 number v I HD EP NU RV CF Hin)|]. clear Same.
  intros [r s1] (s & SR & CASES). destruct (sres_same _ _ _ _ SR) as (_ & _ & _ & EO & _). rewrite <- EO.
  match goal with |- wp ?x (fun '(r, s') => @?Q r s') => eapply wp_mono with (P := fun '(r, s') => reached n m Am Hm (posdef n Hm \/ o_epsLITests (p_opts s) = 0) s s' l0 k1 (fun _ k1' => r = SUCCESSFUL_RETURN -> In number k1')); [|intros [r1 s2] C; eapply reached_pre; eauto] end.
  clear W F Ly FA TQ. apply (sres_pinv n m Am so s l0 l1 k0 k1 SR) in I. pose proof (sres_frame _ _ _ _ SR) as FS. apply (pframe_hdata _ _ _ _ _ _ _ FS) in HD. apply (sres_valid _ _ _ _ _ SR) in RV. pose proof I as [W F Ly FA TQ].
  assert (Same : forall r, r <> SUCCESSFUL_RETURN -> reached n m Am Hm (posdef n Hm \/ o_epsLITests (p_opts s) = 0) s s l0 k1 (fun _ k1' => r = SUCCESSFUL_RETURN -> In number k1')).
  { intros r0 Nr. exists l0, l1, k0, k1. split; [exact I|]. split; [apply pframe_refl|]. split; [exact RV|]. split; [auto|]. intros; contradiction. }
  destruct CASES as [(-> & -> & IND)|[(-> & ->)|[(-> & ->)|(-> & DEP & sg & lp & lx & kx & kp & SG & EXC)]]]; cbn [afterLI].
  - destruct (addC_step eps zero infty zero_0 junk J n m Am s l0 l1 k0 k1 number v true I Hin Hv IND (fun _ => RV)) as (s' & E & I' & FR & V' & X'). rewrite E. cbn [wp].
    assert (EL : zlen (k1 ++ [number]) = (zlen k1 + 1)%Z) by (rewrite zlen_app; reflexivity). assert (EQ : (zlen l0 - zlen k1 - 1 = zlen l0 - zlen (k1 ++ [number]))%Z) by lia. rewrite EQ in V', X'.
    exists l0, l1, (spec_remove k0 number), (k1 ++ [number]). split; [exact I'|]. split; [exact FR|]. split; [now apply V'|]. split; [intros RX _; now apply X'|]. intros _. apply in_or_app. right. now left.
  - cbn [wp]. apply Same; discriminate.
  - cbn [wp]. exists l0, l1, k0, k1. split; [now apply pinv_infeas|]. split; [unfold pframe; cbn; repeat (split; [reflexivity|]); now left|]. split; [exact RV|]. split; [intros RX _; exact RX|discriminate].
  - pose proof EXC as [I1 FR1 NZ1 INl INk IND1 DEP1 FAC1 GR1]. assert (RV1 := exch_valid _ _ _ _ _ _ _ _ _ _ _ _ _ _ _ EXC I).
    assert (IND2 : exists p, (0 <= p < zlen lp - zlen kp)%Z /\ comb lp (Am number) (ce n (p_Q s1)) p <> 0).
    { destruct IND1 as (p & Hp & Np). exists p. split; [exact Hp|]. intros Z0. apply Np. rewrite comb_scal, Z0. ring. }
    destruct (addC_step eps zero infty zero_0 junk J n m Am s1 lp lx kx kp number v true I1 (INk _ Hin) Hv IND2 (fun _ => RV1)) as (s' & E & I' & FR & V' & X'). rewrite E. cbn [wp].
    assert (EL : zlen (kp ++ [number]) = (zlen kp + 1)%Z) by (rewrite zlen_app; reflexivity). assert (EQ : (zlen lp - zlen kp - 1 = zlen lp - zlen (kp ++ [number]))%Z) by lia. rewrite EQ in V', X'.
    exists lp, lx, (spec_remove kx number), (kp ++ [number]). split; [exact I'|]. assert (FR' : pframe s s') by (eapply pframe_trans; eauto). split; [exact FR'|]. split; [now apply V'|].
    split; [|intros _; apply in_or_app; right; now left].
    intros RX GD P. assert (P0 : plainH (p_b s) = true) by (rewrite <- (pframe_plain _ _ _ _ _ FR'); exact P). specialize (RX P0).
    destruct GD as [PDH|E0].
    + apply (X' eq_refl Hm); [|exact P]. intros _. rewrite NZ1. apply (GR1 P0); auto.
    + assert (ND1 : NoDup lp) by exact (rep_NoDup _ _ (wf_ina _ _ _ (pw_b _ _ _ _ _ _ _ _ _ _ _ (pi_w _ _ _ _ _ _ _ _ _ _ _ I1)))).
      assert (P1 : plainH (p_b s1) = true) by (rewrite (pframe_plain _ _ _ _ _ FR1); exact P0).
      destruct (rreg_rinv n (p_sizeT s1) lp kp Am (p_Q s1) (p_T s1) ND1 (pi_tq _ _ _ _ _ _ _ _ _ _ _ I1) (q_R (p_b s1)) (RV1 P1)) as (Hm' & K1).
      assert (K2 := X' eq_refl Hm' (fun _ => K1) P). destruct K2 as (K2 & S2). split; [|exact S2]. revert K2. apply factor_ext.
      assert (EN : (zlen lp - zlen (kp ++ [number]) = zlen l0 - zlen k1)%Z) by lia. rewrite EN.
      pose proof (pi_tq _ _ _ _ _ _ _ _ _ _ _ I') as TQ'. assert (LE : (zlen k1 <= zlen l0)%Z) by apply TQ.
      apply (span_factor n (zlen l0 - zlen k1) lp [] lp Hm Hm' (p_Q s1) (p_Q s') (q_R (p_b s)) (q_R (p_b s1)) (fun a p => comb l0 (fun u => ce n (p_Q s') u a) (ce n (p_Q s)) p)); auto.
      * lia.
      * now rewrite app_nil_r.
      * apply FAC1, RX.
      * rewrite <- NZ1. apply K1.
      * apply (GR1 P0).
      * intros a u Ha Hu. assert (KC := kernel_col n (p_sizeT s') lp (kp ++ [number]) Am (p_Q s') (p_T s') ND1 TQ' a ltac:(lia)).
        apply (DEP1 ltac:(intros p Hp; rewrite comb_scal, (DEP E0 P0 p Hp); ring) (fun u => ce n (p_Q s') u a)); auto.
        -- intros c Hc. apply KC. apply in_or_app. now left.
        -- rewrite (lsum_ext lp _ (fun u => sg * (Am number u * ce n (p_Q s') u a))) by (intros; ring). rewrite lsum_scal, KC; [ring|]. apply in_or_app. right. now left.
      * intros a u Ha [].
Qed.

Lemma addBound_LI n m Am Hm (so : qp N) l0 l1 k0 k1 number v : pinv n m Am so l0 l1 k0 k1 -> hdata eps zero infty n so Hm -> 0 < eps -> Rvalid n so (zlen l0 - zlen k1) -> licfg n m Hm l0 k1 so ->
  In number l0 -> is_active v = true ->
  wp (p_addBound (N := N) junk number v true true so) (fun '(r, s') =>
    reached n m Am Hm (posdef n Hm \/ o_epsLITests (p_opts so) = 0) so s' l0 k1 (fun l1' _ => r = SUCCESSFUL_RETURN -> In number l1')).
Proof.
  intros I HD EP RV CF Hin Hv. pose proof I as [W F Ly FA TQ]. pose proof (pw_b _ _ _ _ _ _ _ _ _ _ _ W) as Wb.
  assert (ND0 : NoDup l0) by exact (rep_NoDup _ _ (wf_ina _ _ _ Wb)).
  assert (Same : forall r, r <> SUCCESSFUL_RETURN -> reached n m Am Hm (posdef n Hm \/ o_epsLITests (p_opts so) = 0) so so l0 k1 (fun l1' _ => r = SUCCESSFUL_RETURN -> In number l1')).
  { intros r Nr. exists l0, l1, k0, k1. split; [exact I|]. split; [apply pframe_refl|]. split; [exact RV|]. split; [auto|]. intros; contradiction. }
  assert (PL : forall l lf : list Z, Permutation l (lf ++ [number]) -> zlen lf = (zlen l - 1)%Z).
  { intros l lf P. assert (X := perm_zlen _ _ P). rewrite zlen_app in X. change (zlen [number]) with 1%Z in X. lia. }
  unfold p_addBound, addBound_check. pose proof Hin as Hin'. apply (wf_in0 _ _ _ Wb) in Hin' as (Hr & HI). rewrite (getStatus_ok _ _ _ _ Wb Hr). cbn [bind]. rewrite HI.
  change (negb (is_sts ST_INACTIVE ST_INACTIVE)) with false. cbv iota.
  destruct (getNumberOfType_ok (p_bounds so) l0 l1 ST_UNBOUNDED Wb) as (nuc & ->). cbn [bind].
  destruct (_ =? nuc)%Z; [cbn [bind wp]; apply Same; discriminate|].
  destruct (p_noUpdate so) eqn:NU; cbn [bind]; [cbn [wp]; apply Same; discriminate|]. cbn [andb].
  apply wp_bind. eapply wp_mono; [apply (ensureLI_B n m Am Hm so l0 l1 k0 k1 number v I HD EP NU RV CF Hin)|]. clear Same.
  intros [r s1] (s & SR & CASES). destruct (sres_same _ _ _ _ SR) as (_ & _ & _ & EO & _). rewrite <- EO.
  match goal with |- wp ?x (fun '(r, s') => @?Q r s') => eapply wp_mono with (P := fun '(r, s') => reached n m Am Hm (posdef n Hm \/ o_epsLITests (p_opts s) = 0) s s' l0 k1 (fun l1' _ => r = SUCCESSFUL_RETURN -> In number l1')); [|intros [r1 s2] C; eapply reached_pre; eauto] end.
  clear W F Ly FA TQ. apply (sres_pinv n m Am so s l0 l1 k0 k1 SR) in I. pose proof (sres_frame _ _ _ _ SR) as FS. apply (pframe_hdata _ _ _ _ _ _ _ FS) in HD. apply (sres_valid _ _ _ _ _ SR) in RV. pose proof I as [W F Ly FA TQ].
  assert (Same : forall r, r <> SUCCESSFUL_RETURN -> reached n m Am Hm (posdef n Hm \/ o_epsLITests (p_opts s) = 0) s s l0 k1 (fun l1' _ => r = SUCCESSFUL_RETURN -> In number l1')).
  { intros r0 Nr. exists l0, l1, k0, k1. split; [exact I|]. split; [apply pframe_refl|]. split; [exact RV|]. split; [auto|]. intros; contradiction. }
  destruct CASES as [(-> & -> & IND)|[(-> & ->)|[(-> & ->)|(-> & DEP & sg & lp & lx & kx & kp & SG & EXC)]]]; cbn [afterLI].
  - destruct (addB_step eps zero infty zero_0 junk J n m Am s l0 l1 k0 k1 number v true I Hin Hv IND (fun _ => RV)) as (s' & lf & E & PM & I' & FR & V' & X'). rewrite E. cbn [wp].
    pose proof (PL _ _ PM) as EL. assert (EQ : (zlen l0 - zlen k1 - 1 = zlen lf - zlen k1)%Z) by lia. rewrite EQ in V', X'.
    exists lf, (l1 ++ [number]), k0, k1. split; [exact I'|]. split; [exact FR|]. split; [now apply V'|]. split; [intros RX _; now apply X'|]. intros _. apply in_or_app. right. now left.
  - cbn [wp]. apply Same; discriminate.
  - cbn [wp]. exists l0, l1, k0, k1. split; [now apply pinv_infeas|]. split; [unfold pframe; cbn; repeat (split; [reflexivity|]); now left|]. split; [exact RV|]. split; [intros RX _; exact RX|discriminate].
  - pose proof EXC as [I1 FR1 NZ1 INl INk IND1 DEP1 FAC1 GR1]. assert (RV1 := exch_valid _ _ _ _ _ _ _ _ _ _ _ _ _ _ _ EXC I).
    assert (ND1 : NoDup lp) by exact (rep_NoDup _ _ (wf_ina _ _ _ (pw_b _ _ _ _ _ _ _ _ _ _ _ (pi_w _ _ _ _ _ _ _ _ _ _ _ I1)))).
    assert (IND2 : exists p, (0 <= p < zlen lp - zlen kp)%Z /\ ce n (p_Q s1) number p <> 0).
    { destruct IND1 as (p & Hp & Np). exists p. split; [exact Hp|]. intros Z0. apply Np. rewrite comb_scal, comb_delta, Z0 by auto. ring. }
    destruct (addB_step eps zero infty zero_0 junk J n m Am s1 lp lx kx kp number v true I1 (INl _ Hin) Hv IND2 (fun _ => RV1)) as (s' & lf & E & PM & I' & FR & V' & X'). rewrite E. cbn [wp].
    pose proof (PL _ _ PM) as EL. assert (EQ : (zlen lp - zlen kp - 1 = zlen lf - zlen kp)%Z) by lia. rewrite EQ in V', X'.
    exists lf, (lx ++ [number]), kx, kp. split; [exact I'|]. assert (FR' : pframe s s') by (eapply pframe_trans; eauto). split; [exact FR'|]. split; [now apply V'|].
    split; [|intros _; apply in_or_app; right; now left].
    intros RX GD P. assert (P0 : plainH (p_b s) = true) by (rewrite <- (pframe_plain _ _ _ _ _ FR'); exact P). specialize (RX P0).
    destruct GD as [PDH|E0].
    + apply (X' eq_refl Hm); [|exact P]. intros _. rewrite NZ1. apply (GR1 P0); auto.
    + assert (P1 : plainH (p_b s1) = true) by (rewrite (pframe_plain _ _ _ _ _ FR1); exact P0).
      destruct (rreg_rinv n (p_sizeT s1) lp kp Am (p_Q s1) (p_T s1) ND1 (pi_tq _ _ _ _ _ _ _ _ _ _ _ I1) (q_R (p_b s1)) (RV1 P1)) as (Hm' & K1).
      assert (K2 := X' eq_refl Hm' (fun _ => K1) P). destruct K2 as (K2 & S2). split; [|exact S2]. revert K2. apply factor_ext.
      assert (EN : (zlen lf - zlen kp = zlen l0 - zlen k1)%Z) by lia. rewrite EN.
      pose proof (pi_tq _ _ _ _ _ _ _ _ _ _ _ I') as TQ'. assert (LE : (zlen k1 <= zlen l0)%Z) by apply TQ.
      assert (NDf : NoDup lf) by exact (rep_NoDup _ _ (wf_ina _ _ _ (pw_b _ _ _ _ _ _ _ _ _ _ _ (pi_w _ _ _ _ _ _ _ _ _ _ _ I')))).
      assert (NIf : forall u, In u lf -> u <> number).
      { intros u Hu ->. apply (Permutation_NoDup PM) in ND1. apply NoDup_remove_2 in ND1. rewrite app_nil_r in ND1. contradiction. }
      set (V := fun a u => if (u =? number)%Z then 0 else ce n (p_Q s') u a).
      assert (VF : forall a u, In u lf -> V a u = ce n (p_Q s') u a) by (intros a u Hu; unfold V; destruct (Z.eqb_spec u number); [now apply NIf in Hu|reflexivity]).
      assert (VN : forall a, V a number = 0) by (intros a; unfold V; now rewrite Z.eqb_refl).
      assert (SUM : forall b a, lsum lp (fun u => b u * V a u) = lsum lf (fun u => b u * ce n (p_Q s') u a)).
      { intros b a. rewrite (lsum_perm lp (lf ++ [number]) _ PM), lsum_app. cbn [lsum]. rewrite VN. rewrite (lsum_ext lf _ (fun u => b u * ce n (p_Q s') u a)) by (intros u Hu; now rewrite VF). ring. }
      assert (KEY : forall a u, (0 <= a < zlen l0 - zlen k1)%Z -> In u lp -> V a u = rsum 0 (zlen l0 - zlen k1) (fun p => comb l0 (V a) (ce n (p_Q s)) p * ce n (p_Q s1) u p)).
      { intros a u Ha Hu. apply DEP1; [intros p Hp; rewrite comb_scal, comb_delta by auto; rewrite (DEP E0 P0 p Hp); ring| | |exact Hu].
        - intros c Hc. rewrite SUM. apply (kernel_col n (p_sizeT s') lf kp Am (p_Q s') (p_T s') NDf TQ' a ltac:(lia) c Hc).
        - rewrite SUM. apply lsum_0. intros w Hw. unfold delta. destruct (Z.eqb_spec w number); [now apply NIf in Hw|ring]. }
      apply (span_factor n (zlen l0 - zlen k1) lp [number] lf Hm Hm' (p_Q s1) (p_Q s') (q_R (p_b s)) (q_R (p_b s1)) (fun a p => comb l0 (V a) (ce n (p_Q s)) p)); auto.
      * lia.
      * apply FAC1, RX.
      * rewrite <- NZ1. apply K1.
      * apply (GR1 P0).
      * intros a u Ha Hu. rewrite <- VF by exact Hu. apply KEY; [exact Ha|]. apply (Permutation_in _ (Permutation_sym PM)). apply in_or_app. now left.
      * intros a u Ha [<-|[]]. rewrite <- KEY; auto.
Qed.
End X17.
