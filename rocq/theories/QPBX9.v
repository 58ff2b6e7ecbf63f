(** Exact homotopy of QProblemB: one step, one iteration, the loop. *)
From Verif Require Import Base Types Num Options Indexlist IndexlistProofs Loops RSum LinSpec SafeLib SubjectTo SubjectToProofs SubjectToProofs2
  Flipper PropFlipper Matrices MatLib MatSafe LinAlg PropLinAlg QProblemB QPBSafe QPBSafe2 QPBSafe3 QPBSafe4 QPBSafe5 QPBSafe6 QPBX1 QPBX2 QPBX3 QPBX4 QPBX5 QPBX6 QPBX7
  PropRatio PropChol PropAux PropStep QPBX8.
Local Open Scope R_scope.

Section X9.
Variables eps zero infty : R.
Hypothesis zero_nn : 0 <= zero.
Hypothesis eps_nn : 0 <= eps.
Notation N := (RNumT eps zero infty).
Notation arr := (list R).
Notation xv := (xv eps zero infty).
Notation yv := (yv eps zero infty).
Notation gv := (gv eps zero infty).
Notation lv := (lv eps zero infty).
Notation uv := (uv eps zero infty).
Notation sv := (sv eps zero infty).
Notation tv := (tv eps zero infty).
Notation opt := (opt eps zero infty).
Notation stationary := (stationary eps zero infty).
Notation unpacks := (unpacks eps zero infty).
Notation linearised := (linearised eps zero infty).
Variable junk : Z -> arr.
Hypothesis J : junk_ok (N := N) junk.

Ltac rdx := rewrite (rd_ok 0) by (rcar; rewrite ?zlen_zupd; lia); cbn [bind].

Definition arrays (n : Z) (s s' : qpb N) : Prop := exists x y g lb ub : arr,
  (zlen x = n /\ zlen y = n /\ zlen g = n /\ zlen lb = n /\ zlen ub = n) /\
  s' = set_q_ub (N := N) ub (set_q_lb (N := N) lb (set_q_g (N := N) g (set_q_y (N := N) y (set_q_x (N := N) x s)))).
Definition moved (n : Z) (s s' : qpb N) (d : deltas N) (dx dy : Z -> R) (t : R) : Prop := forall i, (0 <= i < n)%Z ->
  xv s' i = xv s i + t * dx i /\ yv s' i = yv s i + t * dy i /\ gv s' i = gv s i + t * zn 0 (dl_g d) i /\
  lv s' i = lv s i + t * zn 0 (dl_lb d) i /\ uv s' i = uv s i + t * zn 0 (dl_ub d) i.
Lemma arrays_wf n s s' l0 l1 : qwf n s l0 l1 -> arrays n s s' -> qwf n s' l0 l1.
Proof.
  intros W (x & y & g & lb & ub & (L1 & L2 & L3 & L4 & L5) & ->).
  apply wf_set_ub; [|exact L5]. apply wf_set_lb; [|exact L4]. apply wf_set_g; [|exact L3]. apply wf_set_y; [|exact L2]. now apply wf_set_x.
Qed.

Lemma sv_def n s l0 l1 i : (forall i, (0 <= i < n)%Z -> settled (sv s i)) -> qwf n s l0 l1 -> (0 <= i < n)%Z ->
  (exists p, (0 <= p < zlen l0)%Z /\ zz l0 p = i) \/ (exists q, (0 <= q < zlen l1)%Z /\ zz l1 q = i).
Proof.
  intros SE W Hi. apply (covered eps zero infty n s l0 l1 W); auto. intros j Hj E. destruct (SE j Hj) as [X|[X|X]]; rewrite X in E; discriminate E.
Qed.

Lemma applyStep_exact n (s : qpb N) l0 l1 (d : deltas N) dx dy : qwf n s l0 l1 -> dwf n d -> unpacks l0 l1 d dx dy ->
  (forall i, (0 <= i < n)%Z -> settled (sv s i)) ->
  wp (applyStep (N := N) d s) (fun s' => arrays n s s' /\ (q_tau s <= zero -> s' = s) /\ (zero < q_tau s -> moved n s s' d dx dy (q_tau s))).
Proof.
  intros W D (U0 & U1) SE. pose proof D as [D1 D2 D3 D4 D5 D6]. unfold applyStep. cbv zeta.
  pose proof (w_g _ _ _ _ W) as Wg. pose proof (w_lb _ _ _ _ W) as Wl. pose proof (w_ub _ _ _ _ W) as Wu. pose proof (w_x _ _ _ _ W) as Wx. pose proof (w_y _ _ _ _ W) as Wy. rcar.
  rnum. destruct (Rltb_spec zero (q_tau s)) as [T|T].
  2:{ cbn [wp]. split; [|split; [auto|intros; lra]]. exists (q_x s), (q_y s), (q_g s), (q_lb s), (q_ub s). split; [auto|]. destruct s; reflexivity. }
  rewrite (w_nfr _ _ _ _ W), (w_nfx _ _ _ _ W), (w_nv _ _ _ _ W). pose proof (w_len0 _ _ _ _ W) as Le0. pose proof (w_len1 _ _ _ _ W) as Le1.
  pose proof (w_rep0 _ _ _ _ W) as R0. pose proof (w_rep1 _ _ _ _ W) as R1. pose proof (w_in0 _ _ _ _ W) as I0. pose proof (w_in1 _ _ _ _ W) as I1.
  assert (Ap : forall p, (0 <= p < zlen l0)%Z -> ~ In (zz l0 p) l1).
  { intros p Hp Hin. destruct (In_zn 0%Z _ _ Hin) as (q & Hq & E). symmetry in E. exact (apart eps zero infty n s l0 l1 W p q Hp Hq E). }
  assert (Aq : forall q, (0 <= q < zlen l1)%Z -> ~ In (zz l1 q) l0).
  { intros q Hq Hin. destruct (In_zn 0%Z _ _ Hin) as (p & Hp & E). exact (apart eps zero infty n s l0 l1 W p q Hp Hq E). }
  pose proof (w_n _ _ _ _ W) as Hn.
  apply wp_bind. eapply wp_mono; [apply (stepIdx_exact eps zero infty l0 (FR_idx s) _ (q_tau s) (dl_xFR d) (q_x s) n R0 eq_refl I0 Wx); rcar; lia|].
  intros x1 (Lx1 & Vx1 & Kx1). rcar.
  apply wp_bind. eapply wp_mono; [apply (stepIdx_exact eps zero infty l1 (FX_idx s) _ (q_tau s) (dl_xFX d) x1 n R1 eq_refl I1 Lx1); rcar; lia|].
  intros x2 (Lx2 & Vx2 & Kx2). rcar.
  apply wp_bind. eapply wp_mono; [apply (stepIdx_exact eps zero infty l1 (FX_idx s) _ (q_tau s) (dl_yFX d) (q_y s) n R1 eq_refl I1 Wy); rcar; lia|].
  intros y1 (Ly1 & Vy1 & Ky1). rcar.
  apply wp_bind. eapply wp_mono; [apply (stepAll_exact eps zero infty n (q_tau s) (dl_g d) (q_g s)); rcar; lia|]. intros g1 (Lg1 & Vg1). rcar.
  apply wp_bind. eapply wp_mono; [apply (stepAll_exact eps zero infty n (q_tau s) (dl_lb d) (q_lb s)); rcar; lia|]. intros lb1 (Ll1 & Vl1). rcar.
  apply wp_bind. eapply wp_mono; [apply (stepAll_exact eps zero infty n (q_tau s) (dl_ub d) (q_ub s)); rcar; lia|]. intros ub1 (Lu1 & Vu1). rcar.
  cbn [wp]. split; [exists x2, y1, g1, lb1, ub1; split; [tauto|reflexivity]|]. split; [intros Q; exfalso; lra|]. intros _ i Hi.
  unfold QPBX5.xv, QPBX5.yv, QPBX5.gv, QPBX5.lv, QPBX5.uv. cbn.
  split; [|split; [|split; [now apply Vg1|split; [now apply Vl1|now apply Vu1]]]].
  - destruct (sv_def n s l0 l1 i SE W Hi) as [(p & Hp & <-)|(q & Hq & <-)].
    + rewrite Kx2 by first [exact (Ap p Hp) | apply Hi]. rewrite Vx1 by exact Hp. now rewrite (proj1 (U0 p Hp)).
    + rewrite Vx2 by exact Hq. rewrite Kx1 by first [exact (Aq q Hq) | apply Hi]. now rewrite (proj1 (U1 q Hq)).
  - destruct (sv_def n s l0 l1 i SE W Hi) as [(p & Hp & <-)|(q & Hq & <-)].
    + rewrite Ky1 by first [exact (Ap p Hp) | apply Hi]. rewrite (proj2 (U0 p Hp)). unfold zz. ring.
    + rewrite Vy1 by exact Hq. now rewrite (proj2 (U1 q Hq)).
Qed.

(** ** One step *)
Lemma div_le nu de t : 0 < de -> t <= nu / de -> t * de <= nu.
Proof. intros P H. apply (Rmult_le_compat_r de) in H; [|lra]. unfold Rdiv in H. rewrite Rmult_assoc, Rinv_l in H by lra. lra. Qed.

Definition reached (n : Z) (s s' : qpb N) (d : deltas N) (dx dy : Z -> R) (t : R) : Prop :=
  (t <= zero /\ s' = set_q_tau (N := N) t s) \/ (zero < t /\ moved n s s' d dx dy t).

Lemma performStep_exact n (s : qpb N) l0 l1 Hm (d : deltas N) isZ dx dy del e : qwf n s l0 l1 -> dwf n d -> unpacks l0 l1 d dx dy ->
  linearised n Hm s isZ (dl_g d) (dl_lb d) (dl_ub d) dx dy -> opt del n s Hm ->
  (isZ = true -> forall q, (0 <= q < zlen l1)%Z -> Rabs (zn 0 (dl_lb d) (zz l1 q)) <= eps /\ Rabs (zn 0 (dl_ub d) (zz l1 q)) <= eps) ->
  (forall i, (0 <= i < n)%Z -> lv s i + zn 0 (dl_lb d) i <= uv s i + zn 0 (dl_ub d) i + eps) ->
  (forall i, (0 <= i < n)%Z -> tv s i <> ST_EQUALITY) -> st_noLower (q_bounds s) = false -> st_noUpper (q_bounds s) = false ->
  0 < o_epsDen (q_opts s) <= e -> eps <= e -> 0 <= del <= - o_epsNum (q_opts s) ->
  wp (performStep (N := N) junk d s) (fun '(bi, bs, s') => exists t,
    arrays n (set_q_tau (N := N) t s) s' /\ reached n s s' d dx dy t /\ opt (del + e) n s' Hm /\
    ((bi = (-1)%Z /\ bs = ST_UNDEFINED /\ t = 1) \/ (t < 1 /\ limits eps zero infty s d l0 l1 (bi, bs) t))).
Proof.
  intros W D U LI (ST & OB) IZ CO TY NL NU ED Ee DE. unfold performStep.
  destruct (C33_step eps zero infty junk J n s l0 l1 d W D (proj1 ED)) as (t & bi & bs & E & (T1 & TA & _) & BI).
  rewrite E. cbn [bind].
  assert (SE : forall i, (0 <= i < n)%Z -> settled (sv s i)).
  { intros i Hi. specialize (OB i Hi). unfold opt_bd in OB. unfold settled. destruct (sv s i); try contradiction; auto. }
  assert (Wt : qwf n (set_q_tau (N := N) t s) l0 l1) by (apply (wf_same n s); [exact W|samearr]).
  apply wp_bind. eapply wp_mono; [apply (applyStep_exact n (set_q_tau (N := N) t s) l0 l1 d dx dy Wt D U SE)|].
  intros s' (AR & K0 & K1). cbn [wp]. exists t. split; [exact AR|]. cbn [q_tau set_q_tau] in K0, K1.
  destruct (Rlt_dec zero t) as [Tp|Tn].
  2:{ assert (Es : s' = set_q_tau (N := N) t s) by (apply K0; lra). split; [left; split; [lra|exact Es]|]. split; [|exact BI]. rewrite Es. split; [exact ST|].
      intros i Hi. specialize (OB i Hi). unfold opt_bd in *. change (sv (set_q_tau (N := N) t s) i) with (sv s i).
      change (xv (set_q_tau (N := N) t s) i) with (xv s i). change (yv (set_q_tau (N := N) t s) i) with (yv s i).
      change (lv (set_q_tau (N := N) t s) i) with (lv s i). change (uv (set_q_tau (N := N) t s) i) with (uv s i).
      destruct (sv s i); try contradiction; lra. }
  specialize (K1 Tp). split; [right; auto|]. split; [|exact BI].
  assert (Tr : 0 < t <= 1) by lra.
  assert (SV : forall i, sv s' i = sv s i) by (intros i; destruct AR as (? & ? & ? & ? & ? & _ & ->); reflexivity).
  split.
  - intros i Hi. destruct (K1 i Hi) as (_ & Ey & Eg & _). change (yv (set_q_tau (N := N) t s) i) with (yv s i) in Ey. change (gv (set_q_tau (N := N) t s) i) with (gv s i) in Eg.
    rewrite Ey, Eg. rewrite <- (ST i Hi). destruct (LI i Hi) as (L & _). rewrite <- L. unfold matvec.
    rewrite (rsum_ext 0 n (fun j => Hm i j * xv s' j) (fun j => Hm i j * xv s j + t * (Hm i j * dx j))).
    + rewrite rsum_plus, rsum_scal. ring.
    + intros j Hj. destruct (K1 j Hj) as (-> & _). change (xv (set_q_tau (N := N) t s) j) with (xv s j). ring.
  - intros i Hi. destruct (K1 i Hi) as (Ex & Ey & _ & El & Eu).
    change (xv (set_q_tau (N := N) t s) i) with (xv s i) in Ex. change (yv (set_q_tau (N := N) t s) i) with (yv s i) in Ey.
    change (lv (set_q_tau (N := N) t s) i) with (lv s i) in El. change (uv (set_q_tau (N := N) t s) i) with (uv s i) in Eu.
    rewrite SV, Ex, Ey, El, Eu. specialize (OB i Hi). destruct (LI i Hi) as (_ & L). specialize (CO i Hi). specialize (TY i Hi).
    assert (Co : (exists p, (0 <= p < zlen l0)%Z /\ zz l0 p = i) \/ (exists q, (0 <= q < zlen l1)%Z /\ zz l1 q = i)) by exact (sv_def n s l0 l1 i SE W Hi).
    unfold opt_bd in *. destruct (sv s i) eqn:Es; try contradiction.
    + (* lower *)
      destruct Co as [(p & Hp & <-)|(q & Hq & <-)].
      { destruct (proj1 (wf_in0 _ _ _ (w_st _ _ _ _ W) (zz l0 p)) (zn_In 0%Z l0 p Hp)) as (_ & A). unfold QPBX5.sv in Es. rewrite A in Es. discriminate Es. }
      destruct OB as (B1 & B2 & B3). rewrite L.
      destruct (step_fix eps del e t isZ (xv s (zz l1 q)) (lv s (zz l1 q)) (zn 0 (dl_lb d) (zz l1 q)) (uv s (zz l1 q)) (zn 0 (dl_ub d) (zz l1 q)) Tr ltac:(lra) B1 B2
        (fun Q => IZ Q q Hq) CO) as (C1 & C2).
      split; [exact C1|]. split; [exact C2|].
      apply (step_mult del e t _ _ (o_epsDen (q_opts s))); try lra. intros HB. apply div_le; [lra|]. apply (TA (zz l1 q, ST_INACTIVE)).
      exists q. split; [exact Hq|]. split; [reflexivity|]. cbv zeta. rewrite <- (proj2 ((proj2 U) q Hq)). split; [|reflexivity].
      split; [exact TY|]. left. split; [left; exact Es|]. split; [exact HB|]. change (zn 0 (q_y s) (zz l1 q)) with (yv s (zz l1 q)). lra.
    + (* inactive *)
      destruct Co as [(p & Hp & <-)|(q & Hq & <-)].
      2:{ destruct (proj1 (wf_in1 _ _ _ (w_st _ _ _ _ W) (zz l1 q)) (zn_In 0%Z l1 q Hq)) as (_ & A). unfold QPBX5.sv in Es. rewrite Es in A. discriminate A. }
      destruct OB as (B1 & B2 & B3). rewrite L. split; [rewrite B1; ring|]. split.
      * apply (step_low del e t _ _ _ _ (o_epsDen (q_opts s))); try lra. intros HB. apply div_le; [lra|]. apply (TA (zz l0 p, ST_LOWER)).
        split; [exact NL|]. exists p. split; [exact Hp|]. split; [reflexivity|]. cbv zeta. rewrite <- (proj1 ((proj1 U) p Hp)). split; [|reflexivity].
        split; [exact TY|]. left. split; [right; exact Es|]. split; [exact HB|]. pose proof (Rmax_r (zn 0 (q_x s) (zz l0 p) - zn 0 (q_lb s) (zz l0 p)) 0). lra.
      * apply (step_up del e t _ _ _ _ (o_epsDen (q_opts s))); try lra. intros HB. apply div_le; [lra|]. apply (TA (zz l0 p, ST_UPPER)).
        split; [exact NU|]. exists p. split; [exact Hp|]. split; [reflexivity|]. cbv zeta. rewrite <- (proj1 ((proj1 U) p Hp)). split; [|reflexivity].
        split; [exact TY|]. left. split; [right; exact Es|]. split; [exact HB|]. pose proof (Rmax_r (zn 0 (q_ub s) (zz l0 p) - zn 0 (q_x s) (zz l0 p)) 0). lra.
    + (* upper *)
      destruct Co as [(p & Hp & <-)|(q & Hq & <-)].
      { destruct (proj1 (wf_in0 _ _ _ (w_st _ _ _ _ W) (zz l0 p)) (zn_In 0%Z l0 p Hp)) as (_ & A). unfold QPBX5.sv in Es. rewrite A in Es. discriminate Es. }
      destruct OB as (B1 & B2 & B3). rewrite L.
      assert (An : forall a, Rabs a <= eps -> Rabs (- a) <= eps) by (intros a; now rewrite Rabs_Ropp).
      destruct (step_fix eps del e t isZ (- xv s (zz l1 q)) (- uv s (zz l1 q)) (- zn 0 (dl_ub d) (zz l1 q)) (- lv s (zz l1 q)) (- zn 0 (dl_lb d) (zz l1 q)) Tr ltac:(lra) ltac:(lra) ltac:(lra)
        (fun Q => conj (An _ (proj2 (IZ Q q Hq))) (An _ (proj1 (IZ Q q Hq)))) ltac:(lra)) as (C1 & C2).
      assert (X : (if isZ then 0 else - zn 0 (dl_ub d) (zz l1 q)) = - (if isZ then 0 else zn 0 (dl_ub d) (zz l1 q))) by (destruct isZ; ring). rewrite X in C1, C2.
      split; [lra|]. split; [lra|].
      enough (- (del + e) <= - yv s (zz l1 q) + t * - dy (zz l1 q)) by lra.
      apply (step_mult del e t _ _ (o_epsDen (q_opts s))); try lra. intros HB.
      apply div_le; [lra|]. apply (TA (zz l1 q, ST_INACTIVE)).
      exists q. split; [exact Hq|]. split; [reflexivity|]. cbv zeta. rewrite <- (proj2 ((proj2 U) q Hq)).
      split.
      * split; [exact TY|]. right. split; [exact Es|]. change (zn 0 (q_y s) (zz l1 q)) with (yv s (zz l1 q)). split; lra.
      * change (zn 0 (q_y s) (zz l1 q)) with (yv s (zz l1 q)). field. lra.
Qed.

(** ** One iteration *)
Record tuned (o : options N) : Prop := {
  tu_den : 0 < o_epsDen o; tu_drift : o_enableDriftCorrection o = 1%Z; tu_flip : 0 <= o_epsFlipping o;
  tu_steps : (0 <= o_numRefinementSteps o)%Z; tu_iter : 0 < o_epsIterRef o \/ o_numRefinementSteps o = 0%Z }.
Definition ramps (n : Z) (s : qpb N) : Prop := o_enableRamping (q_opts s) = true ->
  (2 <= n)%Z /\ (0 <= q_rampOffset s)%Z /\ 0 <= q_ramp0 s /\ 0 <= q_ramp1 s.
Record kept (s s' : qpb N) : Prop := {
  k_H : q_H s' = q_H s; k_reg : q_regVal s' = q_regVal s; k_opts : q_opts s' = q_opts s; k_h : hframe (q_htype s) (q_htype s');
  k_type : st_type (q_bounds s') = st_type (q_bounds s); k_noL : st_noLower (q_bounds s') = st_noLower (q_bounds s);
  k_noU : st_noUpper (q_bounds s') = st_noUpper (q_bounds s);
  k_r0 : q_ramp0 s' = q_ramp0 s; k_r1 : q_ramp1 s' = q_ramp1 s; k_ro : (q_rampOffset s <= q_rampOffset s')%Z;
  k_hc : q_haveChol s' = q_haveChol s; k_fl : q_infeasible s' = q_infeasible s /\ q_unbounded s' = q_unbounded s }.
Lemma kept_refl s : kept s s.
Proof. constructor; auto; try lia. now left. Qed.
Lemma kept_trans a b c : kept a b -> kept b c -> kept a c.
Proof.
  intros [] []. constructor; try congruence; try lia; [eauto using hframe_trans|]. destruct k_fl0, k_fl1. split; congruence.
Qed.
Ltac kp := constructor; try reflexivity; try (cbn; lia); try (now left); try (split; reflexivity).

(** everything the homotopy needs, except that the iterate is optimal *)
Record sound (n : Z) (Hm : Z -> Z -> R) (s : qpb N) (l0 l1 : list Z) : Prop := {
  so_wf : qwf n s l0 l1; so_chol : cholesky eps zero infty n s l0 Hm; so_hess : hess eps zero infty n s Hm;
  so_type : forall i, (0 <= i < n)%Z -> tv s i = ST_BOUNDED; so_noL : st_noLower (q_bounds s) = false; so_noU : st_noUpper (q_bounds s) = false;
  so_tuned : tuned (q_opts s); so_ramp : ramps n s; so_set : forall i, (0 <= i < n)%Z -> settled (sv s i) }.
Definition ready (del : R) (n : Z) (Hm : Z -> Z -> R) (s : qpb N) : Prop := (exists l0 l1, sound n Hm s l0 l1) /\ opt del n s Hm.

Lemma sound_kept n Hm s s' l0 l1 l0' l1' : sound n Hm s l0 l1 -> kept s s' -> qwf n s' l0' l1' -> cholesky eps zero infty n s' l0' Hm ->
  (forall i, (0 <= i < n)%Z -> settled (sv s' i)) -> sound n Hm s' l0' l1'.
Proof.
  intros S K W C SE. destruct S as [W0 C0 HE T NL NU TU RA S0], K as [K1 K2 K3 K4 K5 K6 K7 K8 K9 K10 K11]. constructor; auto.
  - apply (PropChol.hess_frame eps zero infty n s); auto.
  - intros i Hi. unfold QPBX5.tv. rewrite K5. now apply T.
  - congruence.
  - congruence.
  - rewrite K3. exact TU.
  - unfold ramps. rewrite K3. intros E. specialize (RA E). rewrite K8, K9. intuition lia.
Qed.
Lemma arrays_sound n Hm s s' l0 l1 : sound n Hm s l0 l1 -> arrays n s s' -> sound n Hm s' l0 l1 /\ kept s s' /\ q_status s' = q_status s.
Proof.
  intros S A. pose proof (arrays_wf n s s' l0 l1 (so_wf _ _ _ _ _ S) A) as W. destruct A as (x & y & g & lb & ub & _ & ->).
  match goal with |- sound _ _ ?s' _ _ /\ _ => assert (K : kept s s') by kp end.
  split; [|split; [exact K|reflexivity]]. apply (sound_kept n Hm s _ l0 l1); auto; apply S.
Qed.
Lemma set_sound n Hm s s' l0 l1 : sound n Hm s l0 l1 -> qwf n s' l0 l1 -> kept s s' -> q_R s' = q_R s -> st_status (q_bounds s') = st_status (q_bounds s) -> sound n Hm s' l0 l1.
Proof.
  intros S W K ER ES. apply (sound_kept n Hm s _ l0 l1); auto.
  - apply (cholesky_frame eps zero infty n s); auto; [apply S|apply K|apply K].
  - intros i Hi. unfold QPBX5.sv. rewrite ES. now apply S.
Qed.

(** ** The types of the bounds *)
Lemma someFinite_exact (a : arr) m (f : R -> bool) : (0 <= m <= zlen a)%Z ->
  wp (someFinite (N := N) (Some a) m f) (fun b => b = true <-> exists i, (0 <= i < m)%Z /\ f (zn 0 a i) = true).
Proof.
  intros Hm. unfold someFinite. apply wp_bind.
  apply wp_forb_up with (I := fun k _ => forall i, (0 <= i < k)%Z -> f (zn 0 a i) = false) (J := fun _ => exists i, (0 <= i < m)%Z /\ f (zn 0 a i) = true); [lia|intros; lia| | |].
  - intros k [] Hk Ik. rdx. destruct (f (zn 0 a k)) eqn:E; cbn [wp]; [exists k; auto|]. intros i Hi. destruct (Z.eq_dec i k) as [->|]; [exact E|apply Ik; lia].
  - intros [] I0. cbn [wp]. split; [discriminate|]. intros (i & Hi & E). rewrite I0 in E by exact Hi. discriminate E.
  - intros [] P. cbn [wp]. tauto.
Qed.
(** every variable is treated as having two bounds *)
Definition two_sided (n : Z) (o : options N) (ln un : arr) : Prop := o_enableEqualities o = false /\
  (o_enableFarBounds o = true \/ forall i, (0 <= i < n)%Z -> - infty + o_boundTolerance o <= zn 0 ln i \/ zn 0 un i <= infty - o_boundTolerance o) /\
  (exists i, (0 <= i < n)%Z /\ - infty < zn 0 ln i) /\ (exists i, (0 <= i < n)%Z /\ zn 0 un i < infty).
Lemma types_exact n (s : qpb N) l0 l1 (ln un : arr) : qwf n s l0 l1 -> (n <= zlen ln)%Z -> (n <= zlen un)%Z -> two_sided n (q_opts s) ln un ->
  wp (setupSubjectToType (N := N) (Some ln) (Some un) s) (fun s' => exists b, s' = set_q_bounds (N := N) b s /\ qwf n s' l0 l1 /\
    st_status b = st_status (q_bounds s) /\ (forall i, (0 <= i < n)%Z -> zt (st_type b) i = ST_BOUNDED) /\ st_noLower b = false /\ st_noUpper b = false).
Proof.
  intros W Ll Lu (EQ & TB & FL & FU).
  pose proof (setupSubjectToType_safe n s l0 l1 (Some ln) (Some un) W Ll Lu) as SA.
  cut (wp (setupSubjectToType (N := N) (Some ln) (Some un) s) (fun s' => (forall i, (0 <= i < n)%Z -> tv s' i = ST_BOUNDED) /\ st_noLower (q_bounds s') = false /\ st_noUpper (q_bounds s') = false)).
  { intros H. eapply wp_mono; [exact (wp_conj _ _ _ SA H)|]. intros s' ((W' & b & E & (_ & SS & _)) & A & B & C). exists b. subst s'. split; [reflexivity|]. split; [exact W'|]. split; [exact SS|]. split; [exact A|]. split; [exact B|exact C]. }
  clear SA. unfold setupSubjectToType. rewrite (w_nv _ _ _ _ W). pose proof (w_n _ _ _ _ W) as Hn. rcar.
  apply wp_bind. eapply wp_mono; [apply (someFinite_exact ln n (fun v => Rltb (- infty) v)); lia|]. intros lo Hlo.
  apply wp_bind. eapply wp_mono; [apply (someFinite_exact un n (fun v => Rltb v infty)); lia|]. intros up Hup.
  assert (Elo : lo = true). { apply Hlo. destruct FL as (i & Hi & F). exists i. split; [exact Hi|]. rnum. now apply Rltb_true. }
  assert (Eup : up = true). { apply Hup. destruct FU as (i & Hi & F). exists i. split; [exact Hi|]. rnum. now apply Rltb_true. }
  subst lo up. cbn [negb]. apply wp_bind. pose proof (w_lb _ _ _ _ W) as Wl. pose proof (w_ub _ _ _ _ W) as Wu. rcar.
  apply wp_for_up with (I := fun k b => st_n b = n /\ zlen (st_type b) = n /\ (forall i, (0 <= i < k)%Z -> zt (st_type b) i = ST_BOUNDED) /\ st_noLower b = false /\ st_noUpper b = false).
  - lia.
  - cbn. split; [apply W|]. split; [rewrite (wf_type _ _ _ (w_st _ _ _ _ W)); apply W|]. split; [intros; lia|auto].
  - intros k b Hk (B1 & B2 & B3 & B4 & B5).
    assert (SET : wp (b_setType b k ST_BOUNDED) (fun b => st_n b = n /\ zlen (st_type b) = n /\ (forall i, (0 <= i < k + 1)%Z -> zt (st_type b) i = ST_BOUNDED) /\ st_noLower b = false /\ st_noUpper b = false)).
    { unfold b_setType, st_setType. rewrite B1. destruct (Z.leb_spec 0 k); [|lia]. destruct (Z.ltb_spec k n); [|lia]. cbn [andb].
      rewrite wr_ok by lia. cbn. rewrite zlen_zupd. split; [exact B1|]. split; [exact B2|]. split; [|auto].
      intros i Hi. rewrite zn_zupd by lia. destruct (Z.eqb_spec i k); [reflexivity|apply B3; lia]. }
    rdx. rdx. rewrite EQ. cbn [andb].
    destruct (_ && negb (o_enableFarBounds (q_opts s))) eqn:U; [|rdx; rdx; exact SET].
    exfalso. apply andb_true_iff in U as (U & F). apply andb_true_iff in U as (U1 & U2). apply negb_true_iff in F. rnum in U1; rnum in U2.
    destruct TB as [TB|TB]; [congruence|]. apply (reflect_iff _ _ (Rltb_spec _ _)) in U1. apply (reflect_iff _ _ (Rltb_spec _ _)) in U2. destruct (TB k Hk); lra.
  - intros b (B1 & B2 & B3 & B4 & B5). cbn [wp]. unfold QPBX5.tv. cbn. auto.
Qed.

Section Strict.
Variables (n : Z) (Hm : Z -> Z -> R) (lam : R).
Hypothesis SY : symm_on n Hm.
Hypothesis SG : strong n Hm lam.
Hypothesis LA : zero * zero < lam.

Lemma changeActiveSet_exact (s : qpb N) l0 l1 bi bs : sound n Hm s l0 l1 -> q_status s = QPS_PERFORMINGHOMOTOPY -> picked l0 l1 bi bs ->
  wp (changeActiveSet (N := N) junk bi bs s) (fun '(r, s') => r = SUCCESSFUL_RETURN -> kept s s' /\ q_status s' = q_status s /\ exists l0' l1', sound n Hm s' l0' l1').
Proof.
  intros S PH P. pose proof S as [W C HE T NL NU TU RA SE]. unfold changeActiveSet.
  assert (NU0 : noUpdate s = false) by (unfold noUpdate; now rewrite PH). assert (NP : q_status s <> QPS_PREPARINGAUXILIARYQP) by (rewrite PH; discriminate).
  assert (UPD : forall (s' : qpb N) b i v, q_bounds s' = b -> st_status b = zupd (st_status (q_bounds s)) i v -> (0 <= i < n)%Z -> settled v -> forall j, (0 <= j < n)%Z -> settled (sv s' j)).
  { intros s' b i v Eb SEq Hi Hv j Hj. unfold QPBX5.sv. rewrite Eb, SEq. pose proof (wf_stat _ _ _ (w_st _ _ _ _ W)) as LS. rewrite (w_nV _ _ _ _ W) in LS.
    rewrite zn_zupd by lia. destruct (Z.eqb_spec j i); [exact Hv|]. now apply SE. }
  assert (Add : is_active bs = true -> In bi l0 -> wp ('(r, s) <- addBound bi bs true s ;;
      Ok (if r =r? SUCCESSFUL_RETURN then SUCCESSFUL_RETURN else RET_ADD_TO_ACTIVESET_FAILED, s))
    (fun '(r, s') => r = SUCCESSFUL_RETURN -> kept s s' /\ q_status s' = q_status s /\ exists l0' l1', sound n Hm s' l0' l1')).
  { intros A Hin. apply wp_bind.
    eapply wp_mono; [exact (addBound_exact eps zero infty zero_nn n s l0 l1 bi bs Hm W Hin A NU0 NP C (cholesky_pivots eps zero infty zero_nn n s l0 l1 Hm lam W C SG LA))|].
    intros [r s'] (-> & (W' & b & R & E & Me & SEq) & C'). cbn [wp].
    assert (K : kept s s'). { subst s'. destruct Me as (M1 & M2 & M3 & M4). kp; assumption. }
    intros _. split; [exact K|]. split; [subst s'; reflexivity|]. exists (spec_remove l0 bi), (l1 ++ [bi]).
    apply (sound_kept n Hm s _ l0 l1); auto. apply (UPD s' b bi bs); [subst s'; reflexivity|exact SEq|exact (w_in0 _ _ _ _ W _ Hin)|].
    destruct bs; try discriminate A; unfold settled; auto. }
  destruct P as [-> | [[-> Hin] | [A Hin]]].
  - cbn. discriminate.
  - apply wp_bind. pose proof (hess_hk eps zero infty n s Hm HE) as K.
    eapply wp_mono; [exact (removeBound_exact eps zero infty zero_nn junk J n s l0 l1 bi Hm W K Hin NU0 NP HE SY C (tu_flip _ TU))|].
    intros [r s'] Post. pose proof (w_in1 _ _ _ _ W _ Hin) as Ri.
    assert (Rm : removed n s s' l0 l1 bi -> kept s s' /\ q_status s' = q_status s /\ (cholesky eps zero infty n s' (l0 ++ [bi]) Hm -> exists l0' l1', sound n Hm s' l0' l1')).
    { intros (W' & b & R & f & E & Me & SEq).
      assert (Kp : kept s s') by (subst s'; destruct Me as (M1 & M2 & M3 & M4); kp; assumption).
      split; [exact Kp|]. split; [subst s'; reflexivity|]. intros C'. eexists. eexists. apply (sound_kept n Hm s _ l0 l1); eauto.
      apply (UPD s' b bi ST_INACTIVE); [subst s'; reflexivity|exact SEq|exact Ri|]. unfold settled; auto. }
    assert (Fl : flippedx n s s' l0 l1 bi -> kept s s' /\ q_status s' = q_status s /\ exists l0' l1', sound n Hm s' l0' l1').
    { intros (W' & b & f & h & lb & ub & E & HF & Me & SEq & _).
      assert (Kp : kept s s') by (subst s'; destruct Me as (M1 & M2 & M3 & M4); kp; assumption).
      split; [exact Kp|]. split; [subst s'; reflexivity|]. eexists. eexists. apply (sound_kept n Hm s _ l0 l1); eauto.
      - apply (cholesky_frame eps zero infty n s); auto; subst s'; auto.
      - apply (UPD s' b bi (flip (zs (st_status (q_bounds s)) bi))); [subst s'; reflexivity|exact SEq|exact Ri|].
        pose proof (proj1 (wf_in1 _ _ _ (w_st _ _ _ _ W) bi) Hin) as (_ & A). destruct (flip_active _ A) as (_ & [-> | ->]); unfold settled; auto. }
    assert (G : negb (r =r? SUCCESSFUL_RETURN) = false -> kept s s' /\ q_status s' = q_status s /\ exists l0' l1', sound n Hm s' l0' l1').
    { intros E. apply negb_false_iff, rv_eqb_eq in E. subst r. destruct (plainH s) eqn:Pl.
      - destruct Post as [(Bad & _)|(r0 & CV & Post)]; [discriminate Bad|].
        destruct (Rltb _ r0); [destruct Post as (_ & A & B); destruct (Rm A) as (G1 & G2 & G3); auto|].
        destruct (o_enableFlippingBounds _); [destruct Post as (_ & A & _); auto|discriminate Post].
      - destruct Post as (_ & Post). destruct (_ && _); [destruct Post as (A & _); auto|]. destruct Post as (A & B).
        destruct (Rm A) as (G1 & G2 & G3). split; [exact G1|]. split; [exact G2|]. apply G3, B.
        intros HT. apply (strong_zero eps zero infty n s Hm lam); auto; [apply W|nra]. }
    destruct (negb _); [cbn; discriminate|]. destruct (G eq_refl) as (K' & Q' & m0 & m1 & S').
    apply wp_bind. apply wp_wrv; [rewrite (w_y _ _ _ _ (so_wf _ _ _ _ _ S')); exact Ri|]. intros y Ly. cbn [wp]. intros _.
    assert (Ky : kept s' (set_q_y (N := N) y s')) by kp.
    split; [exact (kept_trans _ _ _ K' Ky)|]. split; [exact Q'|]. exists m0, m1.
    apply (set_sound n Hm s'); auto. apply wf_set_y; [apply S'|]. rewrite Ly. apply S'.
  - destruct bs; try discriminate A; apply Add; auto.
Qed.

Lemma drift_opt v x l u y l' u' y' : settled v -> drift ST_BOUNDED v x l u y l' u' y' -> opt_bd 0 v x l' u' y'.
Proof.
  unfold drift, opt_bd. pose proof (Rmax_l u x). pose proof (Rmax_r u x). pose proof (Rmin_l l x). pose proof (Rmin_r l x). pose proof (Rmax_r y 0). pose proof (Rmin_r y 0).
  intros [-> | [-> | ->]] (-> & -> & ->); lra.
Qed.
Lemma ramp_opt rv v x l u y l' u' y' : 0 <= rv -> settled v -> ramp rv ST_BOUNDED v x l u y l' u' y' -> opt_bd 0 v x l' u' y'.
Proof.
  unfold ramp, opt_bd. intros P [-> | [-> | ->]] (-> & -> & ->); lra.
Qed.
Lemma corrected_kept s s' rel : corrected eps zero infty n s s' rel -> kept s s' /\ q_R s' = q_R s /\ q_bounds s' = q_bounds s /\ q_x s' = q_x s /\ q_status s' = q_status s.
Proof. intros (g & lb & ub & y & -> & _). split; [kp|]. repeat split; reflexivity. Qed.

Lemma afterChange_exact (s : qpb N) l0 l1 iter : sound n Hm s l0 l1 ->
  wp (afterChange (N := N) iter s) (fun '(r, s') => r = SUCCESSFUL_RETURN -> kept s s' /\ q_status s' = QPS_HOMOTOPYQPSOLVED /\ ready 0 n Hm s').
Proof.
  intros S. unfold afterChange. cbv zeta. apply wp_bind.
  eapply wp_mono with (P := fun '(r, s') => r = SUCCESSFUL_RETURN -> kept s s' /\ sound n Hm s' l0 l1).
  { destruct (_ && _); [|cbn; intros _; split; [apply kept_refl|exact S]].
    eapply wp_mono; [apply (computeCholesky_exact eps zero infty n s l0 l1 Hm zero_nn (so_wf _ _ _ _ _ S) (so_hess _ _ _ _ _ S) SY)|].
    intros [r s'] (P & _) E. destruct (P E) as ((R & LR & Es) & C). assert (K : kept s s') by (subst s'; kp). split; [exact K|].
    apply (sound_kept n Hm s _ l0 l1); auto; [subst s'; apply wf_set_R; [apply S|exact LR]|]. intros i Hi. subst s'. now apply S. }
  intros [r s1] P. destruct (r =r? SUCCESSFUL_RETURN) eqn:Er; cbn [negb].
  2:{ cbn. intros E. apply rv_eqb_neq in Er. contradiction. }
  apply rv_eqb_eq in Er. destruct (P Er) as (K1 & S1). clear P.
  pose proof (so_tuned _ _ _ _ _ S1) as TU.
  apply wp_bind. eapply wp_mono with (P := fun s' => kept s1 s' /\ ready 0 n Hm s').
  { destruct ((q_tau s1 <=' nEPS) && o_enableRamping (q_opts s1)) eqn:B.
    - apply andb_true_iff in B as (_ & B). destruct (so_ramp _ _ _ _ _ S1 B) as (R1 & R2 & R3 & R4).
      eapply wp_mono; [apply (ramping_exact eps zero infty n s1 l0 l1 Hm (so_wf _ _ _ _ _ S1) (so_hess _ _ _ _ _ S1))|].
      intros s' (s2 & E2 & CO & ST). destruct (corrected_kept _ _ _ CO) as (K2 & ER & EB & EX & _). pose proof (corrected_wf eps zero infty n s1 s2 _ l0 l1 (so_wf _ _ _ _ _ S1) CO) as W2.
      assert (K : kept s1 s'). { subst s'. apply (kept_trans _ _ _ K2). constructor; try reflexivity; [now left|cbn|now split]. destruct CO as (? & ? & ? & ? & -> & _). cbn. lia. }
      split; [exact K|]. split.
      + exists l0, l1. apply (set_sound n Hm s1); auto; [|subst s'; exact ER|subst s'; cbn; now rewrite EB]. subst s'. apply (wf_same n s2); [exact W2|samearr].
      + split; [exact ST|]. intros i Hi. destruct CO as (g & lb & ub & y & -> & _ & _ & V). specialize (V i Hi). subst s'. unfold QPBX5.sv, QPBX5.xv, QPBX5.lv, QPBX5.uv, QPBX5.yv. cbn.
        rewrite (so_type _ _ _ _ _ S1 i Hi) in V. apply (ramp_opt (rampv eps zero infty s1 n i)) in V; [exact V| |exact (so_set _ _ _ _ _ S1 i Hi)].
        apply rampv_nonneg; auto; lia.
    - rewrite (tu_drift _ TU), Z.rem_1_r. cbn [Z.ltb Z.compare Z.eqb andb].
      eapply wp_mono; [apply (drift_exact eps zero infty n s1 l0 l1 Hm (so_wf _ _ _ _ _ S1) (so_hess _ _ _ _ _ S1))|].
      intros s' (CO & ST). destruct (corrected_kept _ _ _ CO) as (K2 & ER & EB & EX & _). pose proof (corrected_wf eps zero infty n s1 s' _ l0 l1 (so_wf _ _ _ _ _ S1) CO) as W2.
      split; [exact K2|]. split.
      + exists l0, l1. apply (set_sound n Hm s1); auto. now rewrite EB.
      + split; [exact ST|]. intros i Hi. destruct CO as (g & lb & ub & y & -> & _ & _ & V). specialize (V i Hi). unfold QPBX5.sv, QPBX5.xv, QPBX5.lv, QPBX5.uv, QPBX5.yv. cbn.
        rewrite (so_type _ _ _ _ _ S1 i Hi) in V. exact (drift_opt _ _ _ _ _ _ _ _ (so_set _ _ _ _ _ S1 i Hi) V). }
  intros s2 (K2 & (m0 & m1 & S2) & O2). cbn [wp]. intros _.
  assert (K3 : kept s2 (set_q_status (N := N) QPS_HOMOTOPYQPSOLVED s2)) by kp.
  split; [exact (kept_trans _ _ _ (kept_trans _ _ _ K1 K2) K3)|]. split; [reflexivity|]. split; [|exact O2].
  exists m0, m1. apply (set_sound n Hm s2); auto. apply (wf_same n s2); [apply S2|samearr].
Qed.

(** the bounds of the requested problem *)
Variables (gn : arr) (lbn ubn : option arr).
Hypothesis Hg : (n <= zlen gn)%Z.
Hypothesis Hl : olen (N := N) n lbn.
Hypothesis Hu : olen (N := N) n ubn.
Hypothesis CB : forall i, (0 <= i < n)%Z -> bv lbn (- infty) i <= bv ubn infty i + eps.
Definition arrived (tol : R) (s : qpb N) : Prop :=
  (forall i, (0 <= i < n)%Z -> near tol (zn 0 gn i) (gv s i)) /\ near_opt tol n lbn (lv s) /\ near_opt tol n ubn (uv s).

Variable cpu : Z -> bool.
Lemma solveIter_exact (s : qpb N) del e nWSR performed iter (d : deltas N) : ready del n Hm s -> dwf n d ->
  o_epsDen (q_opts s) <= e -> eps <= e -> 0 <= del <= - o_epsNum (q_opts s) ->
  wp (solveIter (N := N) junk cpu gn lbn ubn nWSR performed iter (s, d)) (fun c => match c with
    | Next (s', d') => dwf n d' /\ kept s s' /\ ready 0 n Hm s'
    | Brk (r, k, s') => r = SUCCESSFUL_RETURN -> kept s s' /\ ready (del + e) n Hm s' /\ arrived (o_terminationTolerance (q_opts s)) s'
    end).
Proof.
  intros ((l0 & l1 & S0) & O0) D0 E1 E2 DE. unfold solveIter.
  assert (CE : let '(ex, s1) := cpuExceeded (N := N) cpu (iter - performed) s in kept s s1 /\ sound n Hm s1 l0 l1 /\ opt del n s1 Hm).
  { unfold cpuExceeded. destruct (iter - performed <=? 0)%Z; [split; [apply kept_refl|auto]|].
    assert (K : kept s (set_q_clk (N := N) (q_clk s + 1) s)) by kp. split; [exact K|]. split; [|exact O0].
    apply (set_sound n Hm s); auto. apply (wf_same n s); [apply S0|samearr]. }
  destruct (cpuExceeded cpu (iter - performed) s) as [ex s1]. destruct CE as (K1 & S1 & O1).
  destruct ex; [cbn; discriminate|]. cbv zeta.
  set (s2 := set_q_status (N := N) QPS_PERFORMINGHOMOTOPY s1).
  assert (K2 : kept s s2) by (apply (kept_trans _ _ _ K1); kp).
  assert (S2 : sound n Hm s2 l0 l1) by (apply (set_sound n Hm s1); auto; [apply (wf_same n s1); [apply S1|samearr]|kp]).
  assert (O2 : opt del n s2 Hm) by exact O1. assert (Q2 : q_status s2 = QPS_PERFORMINGHOMOTOPY) by reflexivity.
  clearbody s2. clear S1 O1 K1 s1. pose proof (so_wf _ _ _ _ _ S2) as W2. pose proof (so_tuned _ _ _ _ _ S2) as TU.
  apply wp_bind. eapply wp_mono; [apply (shift_exact eps zero infty n s2 l0 l1 gn lbn ubn d W2 Hg Hl Hu D0)|].
  intros [d1 isZ] (D1 & V1 & Z1).
  assert (RS : refines_soundly eps zero infty s2 l0) by (intros _; right; exact (tu_iter _ TU)).
  assert (EF : exact_factor eps zero infty n s2 Hm).
  { intros l Rl. rewrite (rep_unique _ _ _ Rl (w_rep0 _ _ _ _ W2)). exact (cholesky_factor eps zero infty n s2 l0 l1 Hm W2 (so_chol _ _ _ _ _ S2)). }
  apply wp_bind.
  pose proof (cholesky_factor eps zero infty n s2 l0 l1 Hm W2 (so_chol _ _ _ _ _ S2)) as CH.
  destruct (C34_step_direction eps zero infty n s2 l0 l1 Hm d1 isZ W2 (so_hess _ _ _ _ _ S2) EF D1 (so_set _ _ _ _ _ S2) (tu_steps _ TU) RS)
    as (rv & d2 & s3 & E3 & _ & G1 & G2 & G3 & P3).
  pose proof (stepDirection_exact eps zero infty n s2 l0 l1 Hm W2 (so_hess _ _ _ _ _ S2) CH d1 D1 isZ (tu_steps _ TU) RS) as X. rewrite E3 in X. cbn [wp] in X.
  rcar. rewrite E3. cbn [wp]. destruct X as ((tmp & Lt & Es3) & D2 & _).
  destruct P3 as [-> | (-> & (dx & dy & U) & LI)].
  { cbn. discriminate. }
  specialize (LI dx dy U). change (negb (SUCCESSFUL_RETURN =r? SUCCESSFUL_RETURN)) with false. cbn iota.
  assert (K3 : kept s2 s3) by (subst s3; kp). assert (W3 : qwf n s3 l0 l1) by (subst s3; apply wf_set_tmp; auto).
  assert (S3 : sound n Hm s3 l0 l1) by (apply (set_sound n Hm s2); auto; subst s3; reflexivity).
  assert (O3 : opt del n s3 Hm) by (subst s3; exact O2). assert (Q3 : q_status s3 = QPS_PERFORMINGHOMOTOPY) by (subst s3; exact Q2).
  assert (V3 : forall i, lv s3 i = lv s2 i /\ uv s3 i = uv s2 i) by (intros i; subst s3; auto).
  assert (L3 : linearised n Hm s3 isZ (dl_g d2) (dl_lb d2) (dl_ub d2) dx dy) by (rewrite G1, G2, G3; subst s3; exact LI).
  clear Es3. pose proof (kept_trans _ _ _ K2 K3) as K03.
  apply wp_bind. eapply wp_mono; [apply (performStep_exact n s3 l0 l1 Hm d2 isZ dx dy del e W3 D2 U L3 O3)|].
  - rewrite G2, G3. exact Z1.
  - intros i Hi. rewrite G2, G3. destruct (V1 i Hi) as (_ & -> & ->). destruct (V3 i) as (-> & ->). specialize (CB i Hi). lra.
  - intros i Hi. rewrite (so_type _ _ _ _ _ S3 i Hi). discriminate.
  - apply S3.
  - apply S3.
  - rewrite (k_opts _ _ K03). split; [rewrite <- (k_opts _ _ K2); apply TU|exact E1].
  - exact E2.
  - rewrite (k_opts _ _ K03). exact DE.
  - intros [[bi bs] s4] (t & AR & RE & O4 & BI).
    assert (St : sound n Hm (set_q_tau (N := N) t s3) l0 l1) by (apply (set_sound n Hm s3); auto; [apply (wf_same n s3); [exact W3|samearr]|kp]).
    assert (Kt : kept s3 (set_q_tau (N := N) t s3)) by kp.
    destruct (arrays_sound n Hm _ _ l0 l1 St AR) as (S4 & K4 & Q4). pose proof (kept_trans _ _ _ (kept_trans _ _ _ K03 Kt) K4) as K04.
    apply wp_bind. eapply wp_mono; [apply (homotopyLength_exact eps zero infty n s4 l0 l1 gn lbn ubn (so_wf _ _ _ _ _ S4) Hg Hl Hu)|].
    intros len (N1 & N2 & N3). rnum. destruct (Rleb_spec len (o_terminationTolerance (q_opts s4))) as [LE|GT].
    + cbn [wp]. intros _. rewrite (k_opts _ _ K04) in LE. assert (Ks : kept s4 (set_q_status (N := N) QPS_SOLVED s4)) by kp.
      split; [exact (kept_trans _ _ _ K04 Ks)|]. split; [split; [|exact O4]|split; [|split]].
      * exists l0, l1. apply (set_sound n Hm s4); auto. apply (wf_same n s4); [apply S4|samearr].
      * intros i Hi. apply (near_mono len); [exact LE|exact (N1 i Hi)].
      * destruct lbn; [|exact I]. intros i Hi. apply (near_mono len); [exact LE|exact (N2 i Hi)].
      * destruct ubn; [|exact I]. intros i Hi. apply (near_mono len); [exact LE|exact (N3 i Hi)].
    + assert (Pk : picked l0 l1 bi bs).
      { destruct BI as [(_ & -> & _)|(_ & BI)]; [now left|]. unfold limits in BI. destruct bs; try contradiction.
        - destruct BI as (_ & p & Hp & -> & _). right. right. split; [reflexivity|apply zn_In, Hp].
        - destruct BI as (p & Hp & -> & _). right. left. split; [reflexivity|apply zn_In, Hp].
        - destruct BI as (_ & p & Hp & -> & _). right. right. split; [reflexivity|apply zn_In, Hp]. }
      apply wp_bind. eapply wp_mono; [apply (changeActiveSet_exact s4 l0 l1 bi bs S4); [rewrite Q4; exact Q3|exact Pk]|].
      intros [r5 s5] P5. destruct (r5 =r? SUCCESSFUL_RETURN) eqn:Er; cbn [negb].
      2:{ apply rv_eqb_neq in Er. destruct (q_infeasible s5); [cbn; discriminate|]. destruct (q_unbounded s5); [cbn; discriminate|]. cbn. intros E. contradiction. }
      apply rv_eqb_eq in Er. destruct (P5 Er) as (K5 & Q5 & m0 & m1 & S5).
      assert (K6 : kept s5 (set_q_wsc (N := N) (q_wsc s5 + 1) s5)) by kp.
      assert (S6 : sound n Hm (set_q_wsc (N := N) (q_wsc s5 + 1) s5) m0 m1) by (apply (set_sound n Hm s5); auto; apply (wf_same n s5); [apply S5|samearr]).
      apply wp_bind. eapply wp_mono; [apply (afterChange_exact _ m0 m1 iter S6)|].
      intros [r7 s7] P7. destruct (r7 =r? SUCCESSFUL_RETURN) eqn:Er7; cbn [negb wp].
      * apply rv_eqb_eq in Er7. destruct (P7 Er7) as (K7 & Q7 & R7). split; [exact D2|].
        split; [exact (kept_trans _ _ _ (kept_trans _ _ _ (kept_trans _ _ _ K04 K5) K6) K7)|exact R7].
      * apply rv_eqb_neq in Er7. intros E. contradiction.
Qed.
End Strict.

(** ** The homotopy between two problems *)
Record loaded (n : Z) (Hm : Z -> Z -> R) (s : qpb N) (l0 l1 : list Z) : Prop := {
  lo_wf : qwf n s l0 l1; lo_chol : cholesky eps zero infty n s l0 Hm; lo_hess : hess eps zero infty n s Hm;
  lo_tuned : tuned (q_opts s); lo_ramp : ramps n s; lo_set : forall i, (0 <= i < n)%Z -> settled (sv s i) }.
Definition started (del : R) (n : Z) (Hm : Z -> Z -> R) (s : qpb N) : Prop := (exists l0 l1, loaded n Hm s l0 l1) /\ opt del n s Hm.
Record held (s s' : qpb N) : Prop := {
  h_H : q_H s' = q_H s; h_reg : q_regVal s' = q_regVal s; h_opts : q_opts s' = q_opts s; h_h : hframe (q_htype s) (q_htype s');
  h_r0 : q_ramp0 s' = q_ramp0 s; h_r1 : q_ramp1 s' = q_ramp1 s; h_ro : (q_rampOffset s <= q_rampOffset s')%Z; h_hc : q_haveChol s' = q_haveChol s }.
Lemma held_refl s : held s s.
Proof. constructor; auto; try lia. now left. Qed.
Lemma held_trans a b c : held a b -> held b c -> held a c.
Proof. intros [] []. constructor; try congruence; try lia. eauto using hframe_trans. Qed.
Lemma kept_held s s' : kept s s' -> held s s'.
Proof. intros []. now constructor. Qed.
Lemma ready_started del n Hm s : ready del n Hm s -> started del n Hm s.
Proof. intros ((l0 & l1 & []) & O). split; [|exact O]. exists l0, l1. now constructor. Qed.
Lemma loaded_set n Hm (s s' : qpb N) l0 l1 : loaded n Hm s l0 l1 -> held s s' -> qwf n s' l0 l1 -> q_R s' = q_R s -> st_status (q_bounds s') = st_status (q_bounds s) -> loaded n Hm s' l0 l1.
Proof.
  intros [W0 C0 HE TU RA SE] [K1 K2 K3 K4 K8 K9 K10 K11] W ER ES. constructor; auto.
  - apply (cholesky_frame eps zero infty n s); auto.
  - apply (PropChol.hess_frame eps zero infty n s); auto.
  - rewrite K3. exact TU.
  - unfold ramps. rewrite K3. intros E. specialize (RA E). rewrite K8, K9. intuition lia.
  - intros i Hi. unfold QPBX5.sv. rewrite ES. now apply SE.
Qed.

Lemma solveQP_exact n Hm lam (cpu : Z -> bool) (s : qpb N) (gn ln un : arr) nWSR p del e : symm_on n Hm -> strong n Hm lam -> zero * zero < lam ->
  started del n Hm s -> accepted (q_status s) -> (n <= zlen gn)%Z -> (n <= zlen ln)%Z -> (n <= zlen un)%Z -> two_sided n (q_opts s) ln un ->
  (forall i, (0 <= i < n)%Z -> zn 0 ln i <= zn 0 un i + eps) -> o_epsDen (q_opts s) <= e -> eps <= e -> 0 <= del <= - o_epsNum (q_opts s) ->
  wp (solveQP (N := N) junk cpu gn (Some ln) (Some un) nWSR p s) (fun '(r, k, s') =>
    (r = SUCCESSFUL_RETURN -> q_status s' = QPS_SOLVED /\ held s s' /\ started (del + e) n Hm s' /\ arrived n gn (Some ln) (Some un) (o_terminationTolerance (q_opts s)) s') /\
    (r <> SUCCESSFUL_RETURN -> q_status s' = QPS_SOLVED -> held s s' /\ started del n Hm s') /\ q_infeasible s' = false /\ q_unbounded s' = false).
Proof.
  intros SY SG LA ((l0 & l1 & L) & O) A Hg Hl Hu TS CB E1 E2 DE. pose proof (lo_wf _ _ _ _ _ L) as W.
  pose proof (solveQP_safe (N := N) junk J cpu n s gn (Some ln) (Some un) nWSR p (ex_intro _ l0 (ex_intro _ l1 W)) (fun _ => hess_hk eps zero infty n s Hm (lo_hess _ _ _ _ _ L)) Hg Hl Hu) as SA.
  cut (wp (solveQP (N := N) junk cpu gn (Some ln) (Some un) nWSR p s) (fun '(r, k, s') =>
    (r = SUCCESSFUL_RETURN -> held s s' /\ started (del + e) n Hm s' /\ arrived n gn (Some ln) (Some un) (o_terminationTolerance (q_opts s)) s') /\
    (r <> SUCCESSFUL_RETURN -> q_status s' = QPS_SOLVED -> held s s' /\ started del n Hm s'))).
  { intros H. eapply wp_mono; [exact (wp_conj _ _ _ SA H)|]. intros [[r k] s'] ((OW & F & X) & P1 & P2).
    destruct X as [(NA & _)|(RN & UB)]; [contradiction|]. destruct RN as (_ & IN & _ & RN). split; [|split; [exact P2|auto]].
    intros E. split; [|exact (P1 E)]. subst r. destruct RN as [(_ & Q & _)|[(X & _)|[(X & _)|(X & _)]]]; [exact Q|discriminate X|discriminate X|congruence]. }
  clear SA. unfold solveQP.
  assert (Acc : wp (s0 <- setupSubjectToType (N := N) (Some ln) (Some un) s ;;
      c <- forb_up p nWSR (solveIter (N := N) junk cpu gn (Some ln) (Some un) nWSR p) (set_q_unbounded false (set_q_infeasible false s0), freshDeltas (N := N) junk (nV (set_q_unbounded false (set_q_infeasible false s0)))) ;;
      Ok (match c with Brk e => e | Next (s, _) => (RET_MAX_NWSR_REACHED, nWSR, s) end)) (fun '(r, k, s') =>
    (r = SUCCESSFUL_RETURN -> held s s' /\ started (del + e) n Hm s' /\ arrived n gn (Some ln) (Some un) (o_terminationTolerance (q_opts s)) s') /\
    (r <> SUCCESSFUL_RETURN -> q_status s' = QPS_SOLVED -> held s s' /\ started del n Hm s'))).
  { apply wp_bind. eapply wp_mono; [apply (types_exact n s l0 l1 ln un W Hl Hu TS)|].
    intros s1 (b & Es1 & W1 & ST & TB & NL & NUp).
    set (s2 := set_q_unbounded false (set_q_infeasible false s1)).
    assert (W2 : qwf n s2 l0 l1) by (apply (wf_same n s1); [exact W1|samearr]).
    assert (H2 : held s s2) by (subst s2 s1; constructor; try reflexivity; try (now left); cbn; lia).
    assert (L2 : loaded n Hm s2 l0 l1) by (apply (loaded_set n Hm s); auto; subst s2 s1; [reflexivity|exact ST]).
    assert (O2 : opt del n s2 Hm). { destruct O as (O & OB). split; [subst s2 s1; exact O|]. intros i Hi. specialize (OB i Hi). subst s2 s1. unfold QPBX5.sv in *. cbn [q_bounds set_q_bounds set_q_unbounded set_q_infeasible]. rewrite ST. exact OB. }
    assert (R2 : ready del n Hm s2). { split; [|exact O2]. exists l0, l1. destruct L2. constructor; auto; subst s2 s1; auto. }
    assert (Q2 : q_status s2 = q_status s) by (subst s2 s1; reflexivity).
    assert (I2 : q_infeasible s2 = false) by reflexivity. assert (U2 : q_unbounded s2 = false) by reflexivity.
    clearbody s2. clear Es1 W1 ST TB NL NUp b s1. rewrite (w_nv _ _ _ _ W2). pose proof (w_n _ _ _ _ W2) as Hn.
    assert (MAX : forall s', (q_status s' = QPS_SOLVED -> held s s' /\ started del n Hm s') -> 
      (RET_MAX_NWSR_REACHED = SUCCESSFUL_RETURN -> held s s' /\ started (del + e) n Hm s' /\ arrived n gn (Some ln) (Some un) (o_terminationTolerance (q_opts s)) s') /\
      (RET_MAX_NWSR_REACHED <> SUCCESSFUL_RETURN -> q_status s' = QPS_SOLVED -> held s s' /\ started del n Hm s')).
    { intros s' H. split; [discriminate|]. intros _. exact H. }
    apply wp_bind. destruct (Z.le_gt_cases p nWSR) as [Hp|Hp].
    2:{ unfold forb_up. replace (Z.to_nat (nWSR - p)) with 0%nat by lia. cbn. apply MAX. intros _. split; [exact H2|exact (ready_started _ _ _ _ R2)]. }
    apply wp_forb_up with
     (I := fun i '(s', d) => dwf n d /\ held s s' /\ q_infeasible s' = false /\ q_unbounded s' = false /\
             ((i = p /\ ready del n Hm s') \/ ((p < i)%Z /\ ready 0 n Hm s' /\ q_status s' = QPS_HOMOTOPYQPSOLVED)))
     (J := fun '(r, k, s') => (r = SUCCESSFUL_RETURN -> held s s' /\ started (del + e) n Hm s' /\ arrived n gn (Some ln) (Some un) (o_terminationTolerance (q_opts s)) s') /\
        (r <> SUCCESSFUL_RETURN -> q_status s' <> QPS_SOLVED)); [lia| | | |].
    - split; [apply (freshDeltas_wf (N := N) junk J n); lia|]. split; [exact H2|]. split; [exact I2|]. split; [exact U2|]. left. auto.
    - intros i [s' d] Hi (D & HS & I' & U' & R').
      assert (RD : exists del', 0 <= del' <= del /\ ready del' n Hm s').
      { destruct R' as [(_ & R')|(_ & R' & _)]; [exists del; split; [lra|exact R']|exists 0; split; [lra|exact R']]. }
      destruct RD as (del' & Hd & RD). pose proof RD as ((m0 & m1 & SO) & _).
      pose proof (solveIter_safe (N := N) junk J cpu n s' m0 m1 gn (Some ln) (Some un) nWSR p i d (so_wf _ _ _ _ _ SO) (hess_hk eps zero infty n s' Hm (so_hess _ _ _ _ _ SO)) I' U' Hg Hl Hu D) as SA.
      pose proof (solveIter_exact n Hm lam SY SG LA gn (Some ln) (Some un) Hg Hl Hu CB cpu s' del' e nWSR p i d RD D) as SX.
      rewrite (h_opts _ _ HS) in SX. specialize (SX E1 E2 ltac:(lra)).
      eapply wp_mono; [exact (wp_conj _ _ _ SA SX)|]. intros [[s3 d3]|[[r k] s3]].
      + intros ((D3 & F3 & (G1 & G2) & Q3 & C3 & W3) & _ & K3 & R3). split; [exact D3|].
        split; [exact (held_trans _ _ _ HS (kept_held _ _ K3))|]. split; [congruence|]. split; [congruence|]. right. split; [lia|auto].
      + intros ((St & F3 & G3 & W3) & P3). split.
        * intros E. destruct (P3 E) as (K3 & R3 & A3). split; [exact (held_trans _ _ _ HS (kept_held _ _ K3))|]. split; [|exact A3].
          apply ready_started in R3. destruct R3 as (R3 & (O3 & OB)). split; [exact R3|]. split; [exact O3|]. intros j Hj. specialize (OB j Hj).
          unfold opt_bd in *. destruct (sv s3 j); try contradiction; lra.
        * intros NE QE. destruct St as [(-> & -> & Q4 & C4 & Hc & Hx)|[(-> & -> & Q4 & C4)|(N1 & N2 & Q4 & HK4)]]; [|congruence|congruence].
          destruct R' as [(-> & _)|(_ & _ & Q')]; [lia|congruence].
    - intros [s' d] (D & HS & I' & U' & R'). cbn [wp]. apply MAX. intros QS. destruct R' as [(_ & R')|(_ & R' & Q')]; [|congruence].
      split; [exact HS|now apply ready_started].
    - intros [[r k] s'] (P1 & P2). cbn [wp]. split; [exact P1|]. intros NE QE. exfalso. exact (P2 NE QE). }
  destruct A as [-> | [-> | ->]]; exact Acc.
Qed.
End X9.
