(** Exact effect of preparing the initial auxiliary problem. *)
From Verif Require Import Base Types Num Options Indexlist IndexlistProofs Loops RSum LinSpec SafeLib SubjectTo SubjectToProofs SubjectToProofs2
  Flipper PropFlipper Matrices MatLib MatSafe LinAlg PropLinAlg QProblemB QPBSafe QPBSafe2 QPBSafe3 QPBSafe4 QPBSafe5 QPBSafe6 QPBX1 QPBX2 QPBX3 QPBX4 QPBX5.

(** the working set obtainAuxiliaryWorkingSet builds, in any arithmetic *)
Lemma obtainAux_exact {N : Num} n (s : qpb N) l0 l1 (xOpt yOpt : option (list N)) guess : qwf n s l0 l1 -> olen n xOpt -> olen n yOpt ->
  (forall gb, guess = Some gb -> gwf gb) ->
  wp (obtainAuxiliaryWorkingSet xOpt yOpt guess s (st_new (nV s))) (fun '(r, aux) => r = SUCCESSFUL_RETURN -> full n aux /\
    forall i, 0 <= i < n -> auxStatus xOpt yOpt guess s i = Ok (zs (st_status aux) i)).
Proof.
  intros W Hx Hy Hg. unfold obtainAuxiliaryWorkingSet. rewrite (w_nv _ _ _ _ W). pose proof (w_n _ _ _ _ W) as Hn. sstep.
  apply wp_forb_up with (I := fun i aux => st_n aux = n /\ (exists a0 a1, st_wf aux a0 a1) /\
     (forall k, 0 <= k < i -> (zs (st_status aux) k = ST_INACTIVE \/ is_active (zs (st_status aux) k) = true) /\
        auxStatus xOpt yOpt guess s k = Ok (zs (st_status aux) k)) /\
     (forall k, i <= k < n -> zs (st_status aux) k = ST_UNDEFINED)) (J := fun _ => True).
  - lia.
  - unfold st_new, st_init. destruct (Z.ltb_spec n 0); [lia|]. cbn [snd st_n st_status]. split; [reflexivity|].
    split. { exists [], []. pose proof (wf_new n ltac:(lia)) as WN. unfold st_new, st_init in WN. destruct (Z.ltb_spec n 0); [lia|]. exact WN. }
    split; [intros; lia|]. intros k Hk. rewrite zn_repeat by lia. reflexivity.
  - intros i aux Hi (En & (a0 & a1 & WA) & Done & Todo). destruct (wp_inv _ _ (auxStatus_safe n s l0 l1 xOpt yOpt guess i W Hx Hy Hg Hi)) as (v & Ev0 & _).
    rewrite Ev0. cbn [bind].
    assert (Hi' : 0 <= i < st_n aux) by lia.
    destruct (sts_eq_dec v ST_INACTIVE) as [Ev|Ev]; [|destruct (is_active v) eqn:Av].
    1,2: destruct (setup_ok KBounds aux a0 a1 i v WA Hi') as (aux' & E & WA' & M & SE);
         [rewrite Todo by lia; discriminate|rewrite Todo by lia; reflexivity|auto|];
         rewrite E; cbn; destruct M as (M1 & _); (split; [congruence|]); (split; [eauto|]); rewrite SE;
         pose proof (wf_stat _ _ _ WA);
         (split; intros k Hk; rewrite zn_zupd by lia; destruct (Z.eqb_spec k i); [subst k|try lia|lia|]; auto; [apply Done; lia|apply Todo; lia]).
    unfold st_setup. destruct (negb _); [exact I|]. destruct v; try congruence; try discriminate; exact I.
  - intros aux (En & WA & Done & _) _. split; [repeat split; auto; apply Done|]; auto. intros i Hi. now apply Done.
  - intros e _. cbn. discriminate.
Qed.

Lemma regularise_frame {N : Num} n (s : qpb N) l0 l1 : qwf n s l0 l1 -> hk s ->
  wp (regulariseHessian s) (fun '(r, s') => qwf n s' l0 l1 /\ hk s' /\ exists v M, s' = set_q_H M (set_q_regVal v s)).
Proof. intros W K. eapply wp_mono; [apply (regulariseHessian_safe n s l0 l1 W K)|]. intros (r, s') (A & B & v & M & E & _). eauto. Qed.

Lemma copyR_none {N : Num} (s s' : qpb N) xOpt yOpt guess : copyR None xOpt yOpt guess s = Ok s' -> s' = set_q_haveChol false s.
Proof. intros E. injection E as <-. reflexivity. Qed.

Local Open Scope R_scope.
Section X6.
Variables eps zero infty : R.
Notation N := (RNumT eps zero infty).
Notation arr := (list R).
Variable junk : Z -> arr.
Hypothesis J : junk_ok (N := N) junk.

(** What a successful preparation leaves behind: [s] is the object with the
    user's data, [s'] the object with the auxiliary problem, [s5] the object in
    which the working set was chosen. *)
Record prepared (n : Z) (s s5 s' : qpb N) (l0 l1 : list Z) (xOpt yOpt : option arr) (guess : option subjectTo) : Prop := {
  pr_wf : qwf n s' l0 l1;
  pr_hk : hk s';
  pr_stat : q_status s' = QPS_AUXILIARYQPSOLVED;
  pr_opts : optframe (q_opts s) (q_opts s');
  pr_x : forall i, (0 <= i < n)%Z -> xv _ _ _ s' i = guess_at xOpt i;
  pr_y : forall i, (0 <= i < n)%Z -> yv _ _ _ s' i = guess_at yOpt i;
  pr_wf5 : exists m0 m1, qwf n s5 m0 m1;
  pr_lb : q_lb s5 = q_lb s; pr_ub : q_ub s5 = q_ub s;
  pr_opts5 : optframe (q_opts s) (q_opts s5);
  pr_type : forall i, tv _ _ _ s5 i = tv _ _ _ s' i;
  pr_noLower : st_noLower (q_bounds s5) = st_noLower (q_bounds s');
  pr_noUpper : st_noUpper (q_bounds s5) = st_noUpper (q_bounds s');
  pr_ws : forall i, (0 <= i < n)%Z -> auxStatus (N := N) xOpt yOpt guess s5 i = Ok (sv _ _ _ s' i);
  pr_def : forall i, (0 <= i < n)%Z -> sv _ _ _ s' i = ST_INACTIVE \/ is_active (sv _ _ _ s' i) = true;
  pr_bounds : forall i, (0 <= i < n)%Z -> auxb true (o_boundRelaxation (q_opts s)) (tv _ _ _ s' i) (sv _ _ _ s' i) (xv _ _ _ s' i)
    (zn 0 (q_lb s) i) (zn 0 (q_ub s) i) (lv _ _ _ s' i) (uv _ _ _ s' i);
  pr_stationary : forall Hm, hess eps zero infty n s' Hm -> stationary _ _ _ n s' Hm
}.

Lemma rlx_frame (o o' : options N) : optframe o o' -> o_boundRelaxation o' = o_boundRelaxation o.
Proof. intros (e & [x ->] & [-> | ->]); reflexivity. Qed.

Lemma prepareInitial_exact n (s : qpb N) (xOpt yOpt : option arr) guess (Rin : option arr) : xwf (N := N) n s ->
  olen (N := N) n xOpt -> olen (N := N) n yOpt -> olen (N := N) (n * n) Rin -> (forall gb, guess = Some gb -> gwf gb) ->
  wp (prepareInitial (N := N) junk xOpt yOpt guess Rin s) (fun '(r, (g0, lb0, ub0), s') => r = SUCCESSFUL_RETURN ->
    (exists s5 l0 l1, prepared n s s5 s' l0 l1 xOpt yOpt guess) /\ (Rin = None -> q_haveChol s' = false) /\
    g0 = q_g s /\ lb0 = q_lb s /\ ub0 = q_ub s).
Proof.
  intros (W & V) Hx Hy HR HG. pose proof (w_n _ _ _ _ W) as Hn. unfold prepareInitial. cbv zeta.
  set (s0 := set_q_status (N := N) QPS_NOTINITIALISED s).
  assert (W0 : qwf n s0 [] []) by (apply (wf_same n s); [exact W|samearr]).
  sstep. eapply wp_mono; [apply (determineHessianType_safe n s0 [] [] W0)|]. intros [r s1] (W1 & K1 & h & o & E1 & Ho).
  assert (S1 : same_rd s s1 /\ optframe (q_opts s) (q_opts s1) /\ virgin n s1).
  { subst s1. split; [split; [split|]; auto|]. split; [exists (q_opts s); split; [apply oframe_refl|exact Ho]|exact V]. }
  clear E1 Ho h o. destruct S1 as (S1 & O1 & V1).
  destruct (r =r? SUCCESSFUL_RETURN); cbn [negb]; [|cbn; discriminate].
  sstep. eapply wp_mono; [apply (setupSubjectToType_safe n s1 [] [] _ _ W1); cbn; apply Z.eq_le_incl; symmetry; apply W1|].
  intros s2 (W2 & b2 & E2 & B2).
  set (s3 := set_q_status (N := N) QPS_PREPARINGAUXILIARYQP s2).
  assert (W3 : qwf n s3 [] []) by (apply (wf_same n s2); [exact W2|samearr]).
  assert (K3 : hk s3) by (subst s3 s2; exact K1).
  assert (S3 : same_rd s s3 /\ optframe (q_opts s) (q_opts s3) /\ q_status s3 = QPS_PREPARINGAUXILIARYQP).
  { subst s3 s2. split; [exact S1|]. split; [exact O1|reflexivity]. }
  destruct S3 as (S3 & O3 & Q3).
  assert (U3 : virgin n s3). { intros i Hi. subst s3 s2. cbn. destruct B2 as (_ & -> & _). now apply V1. }
  clearbody s3. clear s2 W2 E2 B2 b2 s1 W1 K1 S1 O1 V1 s0 W0.
  sstep. eapply wp_mono; [apply (setupAll_safe n s3 W3 U3)|]. intros [r4 b] (-> & W4 & I4 & M4).
  change (negb (SUCCESSFUL_RETURN =r? SUCCESSFUL_RETURN)) with false. cbn iota.
  set (s4 := set_q_bounds (N := N) b s3) in *. set (m0 := setup_order _) in *.
  assert (K4 : hk s4) by exact K3. assert (S4 : same_rd s s4) by exact S3. assert (O4 : optframe (q_opts s) (q_opts s4)) by exact O3.
  assert (Q4 : q_status s4 = QPS_PREPARINGAUXILIARYQP) by exact Q3.
  assert (IA4 : forall i, (0 <= i < n)%Z -> zs (st_status (q_bounds s4)) i = ST_INACTIVE) by exact I4.
  clearbody s4 m0. clear M4 I4.
  sstep. eapply wp_mono; [apply (auxsolution_exact eps zero infty n s4 m0 [] xOpt yOpt W4)|].
  { intros a ->. exact Hx. } { intros a ->. exact Hy. }
  intros s5 (x5 & y5 & E5 & Lx5 & Ly5 & XY5).
  assert (W5 : qwf n s5 m0 []) by (subst s5; apply wf_set_y; [now apply wf_set_x|exact Ly5]).
  assert (S5 : hk s5 /\ same_rd s s5 /\ optframe (q_opts s) (q_opts s5) /\ q_status s5 = QPS_PREPARINGAUXILIARYQP /\
    (forall i, (0 <= i < n)%Z -> xv _ _ _ s5 i = guess_at xOpt i /\ yv _ _ _ s5 i = guess_at yOpt i) /\
    (forall i, (0 <= i < n)%Z -> zs (st_status (q_bounds s5)) i = ST_INACTIVE)) by (subst s5; auto 10).
  clear E5 XY5. destruct S5 as (K5 & S5 & O5 & Q5 & XY5 & IA5).
  sstep. eapply wp_mono; [apply (obtainAux_exact n s5 m0 [] xOpt yOpt guess W5 Hx Hy HG)|]. intros [r6 aux] HA.
  destruct (r6 =r? SUCCESSFUL_RETURN) eqn:E6; cbn [negb]; [|cbn; discriminate].
  apply rv_eqb_eq in E6. destruct (HA E6) as ((An & Aw & As) & AX). clear HA E6 r6.
  assert (GA : gwf aux). { split; [exact Aw|]. intros i Hi. rewrite An in Hi. destruct (As i Hi) as [-> | X]; unfold good_status; auto. }
  sstep. eapply wp_mono; [apply (setupAuxiliaryWorkingSet_safe (N := N) junk J n s5 m0 [] aux true W5 K5 GA Q5)|]. intros [r7 s7] (WS & _ & WV).
  destruct WS as (p0 & p1 & b7 & R7 & f7 & W7 & E7 & Me7).
  destruct (r7 =r? SUCCESSFUL_RETURN) eqn:E7'; cbn [negb]; [|cbn; discriminate].
  apply rv_eqb_eq in E7'. destruct (WV E7' (or_intror IA5)) as (_ & SV7). clear WV E7'.
  assert (S7 : hk s7 /\ same_rd s s7 /\ optframe (q_opts s) (q_opts s7) /\ q_x s7 = q_x s5 /\ q_y s7 = q_y s5 /\ q_bounds s7 = b7) by (subst s7; auto 8).
  clear E7. destruct S7 as (K7 & S7 & O7 & X7 & Y7 & B7).
  sstep. eapply wp_mono with (P := fun '(r, s8) => qwf n s8 p0 p1 /\ hk s8 /\ exists v M, s8 = set_q_H (N := N) M (set_q_regVal (N := N) v s7)).
  { destruct (_ || _); [|cbn; split; [exact W7|]; split; [exact K7|]; exists (q_regVal s7), (q_H s7); destruct s7; reflexivity]. now apply regularise_frame. }
  intros [r8 s8] (W8 & K8 & v8 & M8 & E8).
  destruct (r8 =r? SUCCESSFUL_RETURN); cbn [negb]; [|cbn; discriminate].
  assert (S8 : same_rd s s8 /\ optframe (q_opts s) (q_opts s8) /\ q_x s8 = q_x s5 /\ q_y s8 = q_y s5 /\ q_bounds s8 = b7) by (subst s8; auto 8).
  clear E8 v8 M8. destruct S8 as (S8 & O8 & X8 & Y8 & B8).
  sstep. destruct (wp_inv _ _ (copyR_ok (fun _ => false) n s8 p0 p1 Rin xOpt yOpt guess W8 HR)) as (s9 & E9' & W9 & R9 & b9 & E9). rewrite E9'. cbn [wp].
  assert (HC9 : Rin = None -> q_haveChol s9 = false). { intros ->. rewrite (copyR_none _ _ _ _ _ E9'). reflexivity. } clear E9'.
  assert (S9 : hk s9 /\ same_rd s s9 /\ optframe (q_opts s) (q_opts s9) /\ q_x s9 = q_x s5 /\ q_y s9 = q_y s5 /\ q_bounds s9 = b7) by (subst s9; auto 8).
  clear E9. destruct S9 as (K9 & S9 & O9 & X9 & Y9 & B9).
  rewrite (w_nv _ _ _ _ W9). pose proof (J n ltac:(lia)) as Jn.
  rewrite (copy_eq n (q_g s9)), (copy_eq n (q_lb s9)), (copy_eq n (q_ub s9)); auto; try lia; try apply W9. cbn [bind].
  destruct S9 as (S9 & EG9 & EL9 & EU9).
  sstep. destruct (wp_inv _ _ (setupAuxiliaryQPgradient_safe n s9 p0 p1 W9 K9)) as (s10 & G10 & W10 & g10 & E10). rewrite G10. cbn [wp].
  assert (SV10 : forall i, (0 <= i < n)%Z -> sv _ _ _ s10 i = zs (st_status aux) i).
  { intros i Hi. subst s10. unfold sv. cbn. rewrite B9, <- B7. now apply SV7. }
  sstep. eapply wp_mono; [apply (auxbounds_exact eps zero infty n s10 p0 p1 true W10)|].
  { intros i Hi. rewrite SV10 by exact Hi. destruct (As i Hi) as [-> | X]; [discriminate|]. intros E. rewrite E in X. discriminate X. }
  intros [r11 s11] (-> & lb11 & ub11 & E11 & Ll11 & Lu11 & V11).
  change (negb (SUCCESSFUL_RETURN =r? SUCCESSFUL_RETURN)) with false. cbn iota. cbn [wp]. intros _.
  split; [|subst s11 s10; auto].
  assert (T10 : forall i, tv _ _ _ s5 i = tv _ _ _ s10 i).
  { intros i. subst s10. unfold tv. cbn. rewrite B9. destruct Me7 as (_ & -> & _). reflexivity. }
  exists s5, p0, p1. constructor.
  - apply (wf_same n s11); [|samearr]. subst s11. apply wf_set_ub; [apply wf_set_lb; [exact W10|exact Ll11]|exact Lu11].
  - subst s11 s10. exact K9.
  - reflexivity.
  - subst s11 s10. exact O9.
  - intros i Hi. subst s11 s10. unfold xv. cbn. rewrite X9. now apply XY5.
  - intros i Hi. subst s11 s10. unfold yv. cbn. rewrite Y9. now apply XY5.
  - eauto.
  - apply S5.
  - apply S5.
  - exact O5.
  - intros i. rewrite T10. subst s11. reflexivity.
  - subst s11 s10. cbn. rewrite B9. destruct Me7 as (_ & _ & -> & _). reflexivity.
  - subst s11 s10. cbn. rewrite B9. destruct Me7 as (_ & _ & _ & ->). reflexivity.
  - intros i Hi. rewrite AX by exact Hi. f_equal. rewrite <- SV10 by exact Hi. subst s11. reflexivity.
  - intros i Hi. replace (sv eps zero infty (set_q_status (N := N) QPS_AUXILIARYQPSOLVED s11) i) with (sv _ _ _ s10 i) by (subst s11; reflexivity). rewrite SV10 by exact Hi. now apply As.
  - intros i Hi. specialize (V11 i Hi). rewrite (rlx_frame (q_opts s)) in V11 by (subst s10; exact O9).
    subst s11. assert (EL : lv eps zero infty s10 i = zn 0 (q_lb s) i) by (subst s10; unfold lv; cbn; now rewrite EL9).
    assert (EU : uv eps zero infty s10 i = zn 0 (q_ub s) i) by (subst s10; unfold uv; cbn; now rewrite EU9). rewrite EL, EU in V11. exact V11.
  - intros Hm HE. assert (HE9 : hess eps zero infty n s9 Hm) by (subst s11 s10; exact HE).
    destruct (wp_inv _ _ (gradient_exact eps zero infty n s9 p0 p1 Hm W9 HE9)) as (s10' & G10' & g & Eg & Lg & Vg).
    rewrite G10 in G10'. injection G10' as <-. intros i Hi. specialize (Vg i Hi). rewrite E11, Eg.
    transitivity (matvec n Hm (xv eps zero infty s9) i + zn 0 g i); [reflexivity|]. rewrite Vg. transitivity (yv eps zero infty s9 i); [ring|reflexivity].
Qed.
End X6.
