(** Exact runs of QProblemB::init: from the arguments to the solution. *)
From Verif Require Import Base Types Num Options Indexlist IndexlistProofs Loops RSum LinSpec SafeLib SubjectTo SubjectToProofs SubjectToProofs2
  Flipper PropFlipper Matrices MatLib MatSafe PropDense CsLib PropSparse PropSparse2 LinAlg PropLinAlg QProblemB QPBSafe QPBSafe2 QPBSafe3 QPBSafe4 QPBSafe5 QPBSafe6 QPBX1 QPBX2 QPBX3 QPBX4 QPBX5 QPBX6 QPBX7
  PropRatio PropChol PropAux PropHess PropStep QPBX8 QPBX9 QPBX10.
Local Open Scope R_scope.

Section X11.
Variables eps zero infty : R.
Hypothesis zero_nn : 0 <= zero < 1.
Hypothesis eps_nn : 0 <= eps.
Notation N := (RNumT eps zero infty).
Notation arr := (list R).
Variable junk : Z -> arr.
Hypothesis J : junk_ok (N := N) junk.
Variable cpu : Z -> bool.

(** what the preparation leaves alone once the type of the Hessian is known *)
Record hfix (a b : qpb N) : Prop := {
  x_H : q_H b = q_H a; x_reg : q_regVal b = q_regVal a; x_h : q_htype b = q_htype a; x_o : q_opts b = q_opts a;
  x_r0 : q_ramp0 b = q_ramp0 a; x_r1 : q_ramp1 b = q_ramp1 a; x_ro : q_rampOffset b = q_rampOffset a;
  x_t : o_enableEqualities (q_opts a) = false -> forall i, (0 <= i < st_n (q_bounds a))%Z -> tv eps zero infty b i <> ST_EQUALITY }.

Lemma types_noeq n (s : qpb N) l0 l1 (ln un : arr) : qwf n s l0 l1 -> (n <= zlen ln)%Z -> (n <= zlen un)%Z -> o_enableEqualities (q_opts s) = false ->
  wp (setupSubjectToType (N := N) (Some ln) (Some un) s) (fun s' => forall i, (0 <= i < n)%Z -> tv eps zero infty s' i <> ST_EQUALITY).
Proof.
  intros W Ll Lu EQ. unfold setupSubjectToType. rewrite (w_nv _ _ _ _ W). pose proof (w_n _ _ _ _ W) as Hn. rcar.
  apply wp_bind. eapply wp_mono; [apply (someFinite_exact eps zero infty ln n (fun v => Rltb (- infty) v)); lia|]. intros lo _.
  apply wp_bind. eapply wp_mono; [apply (someFinite_exact eps zero infty un n (fun v => Rltb v infty)); lia|]. intros up _.
  apply wp_bind. pose proof (w_lb _ _ _ _ W) as Wl. pose proof (w_ub _ _ _ _ W) as Wu. rcar.
  apply wp_for_up with (I := fun k b => st_n b = n /\ zlen (st_type b) = n /\ forall i, (0 <= i < k)%Z -> zt (st_type b) i <> ST_EQUALITY).
  - lia.
  - cbn. split; [apply W|]. split; [rewrite (wf_type _ _ _ (w_st _ _ _ _ W)); apply W|intros; lia].
  - intros k b Hk (B1 & B2 & B3).
    assert (SET : forall t, t <> ST_EQUALITY -> wp (b_setType b k t) (fun b => st_n b = n /\ zlen (st_type b) = n /\ forall i, (0 <= i < k + 1)%Z -> zt (st_type b) i <> ST_EQUALITY)).
    { intros t Ht. unfold b_setType, st_setType. rewrite B1. destruct (Z.leb_spec 0 k); [|lia]. destruct (Z.ltb_spec k n); [|lia]. cbn [andb].
      rewrite wr_ok by lia. cbn. rewrite zlen_zupd. split; [exact B1|]. split; [exact B2|].
      intros i Hi. rewrite zn_zupd by lia. destruct (Z.eqb_spec i k); [exact Ht|apply B3; lia]. }
    do 2 (rewrite (rd_ok 0) by (rcar; lia); cbn [bind]). rewrite EQ. cbn [andb].
    destruct (_ && negb (o_enableFarBounds (q_opts s))); [apply SET; discriminate|]. do 2 (rewrite (rd_ok 0) by (rcar; lia); cbn [bind]). apply SET; discriminate.
  - intros b (B1 & B2 & B3). cbn [wp]. unfold tv. cbn. auto.
Qed.

Lemma prepareInitial_frame n (s : qpb N) (xOpt yOpt : option arr) guess (Rin : option arr) : xwf (N := N) n s ->
  olen (N := N) n xOpt -> olen (N := N) n yOpt -> olen (N := N) (n * n) Rin -> (forall gb, guess = Some gb -> gwf gb) ->
  wp (prepareInitial (N := N) junk xOpt yOpt guess Rin s) (fun '(r, d, s') => r = SUCCESSFUL_RETURN ->
    exists s1, determineHessianType (N := N) (set_q_status (N := N) QPS_NOTINITIALISED s) = Ok (SUCCESSFUL_RETURN, s1) /\
      (q_htype s1 <> HST_ZERO -> q_htype s1 <> HST_SEMIDEF -> hfix s1 s')).
Proof.
  intros (W & V) Hx Hy HR HG. pose proof (w_n _ _ _ _ W) as Hn. unfold prepareInitial. cbv zeta.
  set (s0 := set_q_status (N := N) QPS_NOTINITIALISED s).
  assert (W0 : qwf n s0 [] []) by (apply (wf_same n s); [exact W|samearr]).
  destruct (wp_inv _ _ (determineHessianType_safe (N := N) n s0 [] [] W0)) as ((r, s1) & E0 & W1 & K1 & h & o & E1 & Ho). rewrite E0. cbn [bind].
  assert (V1 : virgin n s1) by (subst s1; exact V). clear E1 Ho h o.
  destruct (r =r? SUCCESSFUL_RETURN) eqn:ER; cbn [negb]; [apply rv_eqb_eq in ER; subst r|cbn; intros; discriminate].
  apply wp_mono with (P := fun '(r, d, s') => r = SUCCESSFUL_RETURN -> q_htype s1 <> HST_ZERO -> q_htype s1 <> HST_SEMIDEF -> hfix s1 s').
  2:{ intros [[r ?] s'] H E. exists s1. split; [reflexivity|auto]. }
  sstep. assert (L1 : (n <= zlen (q_lb s1))%Z /\ (n <= zlen (q_ub s1))%Z) by (split; apply Z.eq_le_incl; symmetry; apply W1).
  destruct (wp_inv _ _ (setupSubjectToType_safe n s1 [] [] (Some (q_lb s1)) (Some (q_ub s1)) W1 (proj1 L1) (proj2 L1))) as (s2 & E12 & W2 & b2 & E2 & B2).
  assert (T2 : o_enableEqualities (q_opts s1) = false -> forall i, (0 <= i < st_n (q_bounds s1))%Z -> tv eps zero infty s2 i <> ST_EQUALITY).
  { intros EQ. pose proof (types_noeq n s1 [] [] (q_lb s1) (q_ub s1) W1 (proj1 L1) (proj2 L1) EQ) as X. apply wp_inv in X as (s2' & E12' & X). injection (eq_trans (eq_sym E12) E12') as <-.
    rewrite (w_nV _ _ _ _ W1). exact X. }
  match goal with |- wp ?m _ => change m with (setupSubjectToType (N := N) (Some (q_lb s1)) (Some (q_ub s1)) s1) end. rewrite E12. cbn [wp].
  set (s3 := set_q_status (N := N) QPS_PREPARINGAUXILIARYQP s2).
  assert (W3 : qwf n s3 [] []) by (apply (wf_same n s2); [exact W2|samearr]).
  assert (K3 : hk s3) by (subst s3 s2; exact K1).
  assert (S3 : hfix s1 s3 /\ q_status s3 = QPS_PREPARINGAUXILIARYQP) by (split; [constructor; try (subst s3 s2; reflexivity); exact T2|reflexivity]).
  destruct S3 as (S3 & Q3).
  assert (U3 : virgin n s3). { intros i Hi. subst s3 s2. cbn. destruct B2 as (_ & -> & _). now apply V1. }
  clearbody s3. clear s2 W2 E2 B2 b2 V1 W0 E0 E12 T2.
  sstep. eapply wp_mono; [apply (setupAll_safe n s3 W3 U3)|]. intros [r4 b] (-> & W4 & I4 & M4).
  change (negb (SUCCESSFUL_RETURN =r? SUCCESSFUL_RETURN)) with false. cbn iota.
  set (s4 := set_q_bounds (N := N) b s3) in *. set (m0 := setup_order _) in *.
  assert (K4 : hk s4) by exact K3. assert (S4 : hfix s1 s4). { destruct S3; constructor; try assumption. intros EQ i Hi. specialize (x_t0 EQ i Hi). unfold tv in *. cbn. destruct M4 as (_ & -> & _). exact x_t0. }
  assert (Q4 : q_status s4 = QPS_PREPARINGAUXILIARYQP) by exact Q3.
  clearbody s4 m0. clear M4 I4.
  sstep. eapply wp_mono; [apply (setupAuxiliaryQPsolution_safe n s4 m0 [] xOpt yOpt W4 Hx Hy)|]. intros s5 (W5 & x5 & y5 & E5).
  assert (S5 : hk s5 /\ hfix s1 s5 /\ q_status s5 = QPS_PREPARINGAUXILIARYQP) by (subst s5; split; [exact K4|]; split; [destruct S4; constructor; assumption|exact Q4]).
  clear E5. destruct S5 as (K5 & S5 & Q5).
  sstep. eapply wp_mono; [apply (obtainAux_safe n s5 m0 [] xOpt yOpt guess W5 Hx Hy HG)|]. intros [r6 aux] HA.
  destruct (r6 =r? SUCCESSFUL_RETURN) eqn:E6; cbn [negb]; [|cbn; discriminate].
  apply rv_eqb_eq in E6. destruct (HA E6) as (An & Aw & As). clear HA E6 r6.
  assert (GA : gwf aux). { split; [exact Aw|]. intros i Hi. rewrite An in Hi. destruct (As i Hi) as [-> | X]; unfold good_status; auto. }
  sstep. eapply wp_mono; [apply (setupAuxiliaryWorkingSet_safe (N := N) junk J n s5 m0 [] aux true W5 K5 GA Q5)|]. intros [r7 s7] (WS & _ & _).
  destruct WS as (p0 & p1 & b7 & R7 & f7 & W7 & E7 & M7).
  assert (S7 : hk s7 /\ hfix s1 s7). { subst s7. split; [exact K5|]. destruct S5; constructor; try assumption. intros EQ i Hi. specialize (x_t0 EQ i Hi). unfold tv in *. cbn. destruct M7 as (_ & -> & _). exact x_t0. }
  clear E7. destruct S7 as (K7 & S7).
  destruct (r7 =r? SUCCESSFUL_RETURN); cbn [negb]; [|cbn; discriminate].
  destruct (is_hst (q_htype s7) HST_ZERO || is_hst (q_htype s7) HST_SEMIDEF) eqn:HZ.
  { (* not the case asked for *)
    eapply wp_mono with (P := fun _ => True).
    2:{ intros [[? ?] ?] _ _ Z1 Z2. exfalso. rewrite (x_h _ _ S7) in HZ. destruct (q_htype s1); try discriminate HZ; congruence. }
    sstep. eapply wp_mono; [apply (regulariseHessian_safe n s7 p0 p1 W7 K7)|]. intros [r8 s8] (W8 & K8 & _).
    destruct (r8 =r? SUCCESSFUL_RETURN); cbn [negb]; [|exact I].
    sstep. eapply wp_mono; [apply (copyR_ok cpu n s8 p0 p1 Rin xOpt yOpt guess W8 HR)|]. intros s9 (W9 & R9 & b9 & E9).
    assert (K9 : hk s9) by (subst s9; exact K8).
    rewrite (w_nv _ _ _ _ W9). pose proof (J n ltac:(lia)) as Jn.
    rewrite (copy_eq n (q_g s9)), (copy_eq n (q_lb s9)), (copy_eq n (q_ub s9)); auto; try lia; try apply W9. cbn [bind].
    sstep. eapply wp_mono; [apply (setupAuxiliaryQPgradient_safe n s9 p0 p1 W9 K9)|]. intros s10 (W10 & _).
    sstep. eapply wp_mono; [apply (setupAuxiliaryQPbounds_safe n s10 p0 p1 true W10)|]. intros [r11 s11] _. destruct (negb _); exact I. }
  cbn [bind]. change (negb (SUCCESSFUL_RETURN =r? SUCCESSFUL_RETURN)) with false. cbn iota.
  sstep. eapply wp_mono; [apply (copyR_ok cpu n s7 p0 p1 Rin xOpt yOpt guess W7 HR)|]. intros s9 (W9 & R9 & b9 & E9).
  assert (S9 : hk s9 /\ hfix s1 s9) by (subst s9; split; [exact K7|destruct S7; constructor; assumption]).
  clear E9. destruct S9 as (K9 & S9).
  rewrite (w_nv _ _ _ _ W9). pose proof (J n ltac:(lia)) as Jn.
  rewrite (copy_eq n (q_g s9)), (copy_eq n (q_lb s9)), (copy_eq n (q_ub s9)); auto; try lia; try apply W9. cbn [bind].
  sstep. eapply wp_mono; [apply (setupAuxiliaryQPgradient_safe n s9 p0 p1 W9 K9)|]. intros s10 (W10 & g10 & E10).
  assert (S10 : hfix s1 s10) by (subst s10; destruct S9; constructor; assumption).
  sstep. eapply wp_mono; [apply (setupAuxiliaryQPbounds_safe n s10 p0 p1 true W10)|]. intros [r11 s11] (W11 & lb11 & ub11 & E11).
  assert (S11 : hfix s1 s11) by (subst s11; destruct S10; constructor; assumption).
  destruct (r11 =r? SUCCESSFUL_RETURN); cbn [negb]; [|cbn; discriminate].
  cbn [wp]. intros _ _ _. destruct S11; constructor; assumption.
Qed.

(** the matrix an argument stands for *)
Definition matrix_arg (n : Z) (h : harg N) : option (symmat N) :=
  match h with HMat M => M | HArr (Some a) => Some (SDense (N := N) (mkDense n n n a)) | HArr None => None end.
(** stored in a form all operations are exact for *)
Definition stored_exactly (n : Z) (M : symmat N) : Prop :=
  match M with
  | SDense A => wf_dense A /\ d_nr A = n /\ d_nc A = n /\ d_ld A = n
  | SSparse A => zero = 0 /\ wf_sparse A /\ s_nr A = n /\ s_nc A = n /\ exists jd, s_jd A = Some jd /\ diag_info n (s_jc A) (s_ir A) jd
  end.
Definition entries (M : symmat N) : Z -> Z -> R := match M with SDense A => dmat A | SSparse A => smat A end.
Lemma stored_represents n M : stored_exactly n M -> represents eps zero infty n M (entries M).
Proof. destruct M as [A|A]; cbn; [tauto|]. intros (_ & B & C & D & E). auto. Qed.
Lemma stored_mat_ok n M : (0 <= n)%Z -> stored_exactly n M -> mat_ok eps zero infty n M (entries M).
Proof.
  intros Hn. destruct M as [A|A]; cbn [stored_exactly entries].
  - intros (A1 & A2 & A3 & A4). now apply dense_mat_ok.
  - intros (A0 & A1 & A2 & A3 & jd & A4 & A5). now apply (sparse_mat_ok eps zero infty n A jd).
Qed.

(** the Hessian in use: H itself, or the identity if H equals it up to EPS *)
Definition in_use (n : Z) (H : Z -> Z -> R) (Hu : Z -> Z -> R) : Prop :=
  Hu = H \/ (Hu = delta /\ forall i j, (0 <= i < n)%Z -> (0 <= j < n)%Z -> Rabs (H i j - delta i j) <= eps).
Lemma delta_strong n : (0 <= n)%Z -> symm_on n delta /\ strong n delta 1.
Proof.
  intros Hn. split; [intros i j _ _; unfold delta; now rewrite Z.eqb_sym|]. intros x. rewrite Rmult_1_l. right.
  unfold quad. apply rsum_ext. intros i Hi. rewrite (rsum_ext 0 n (fun j => x i * delta i j * x j) (fun j => x i * (delta i j * x j))) by (intros; ring).
  rewrite rsum_scal. f_equal. now rewrite rsum_pick.
Qed.

(** objects init may be called on: anything after a successful call, or an object
    that was not used yet *)
Definition startable (n : Z) (s : qpb N) : Prop := isInitialised s = true \/
  ((q_htype s = HST_UNKNOWN \/ q_htype s = HST_POSDEF) /\ usingReg s = false /\ ramps eps zero infty n s).

Lemma diag_strong n H lam i : strong n H lam -> (0 <= i < n)%Z -> lam <= H i i.
Proof.
  intros S Hi. specialize (S (fun j => delta i j)).
  cbv beta in S. rewrite (rsum_pick 0 n i (fun j => delta i j)) in S by exact Hi.
  unfold quad in S. rewrite (rsum_ext 0 n _ (fun k => delta i k * rsum 0 n (fun j => delta i j * H k j))) in S.
  2:{ intros k _. rewrite <- rsum_scal. apply rsum_ext. intros; ring. }
  rewrite (rsum_pick 0 n i (fun k => rsum 0 n (fun j => delta i j * H k j))), (rsum_pick 0 n i (fun j => H i j)) in S by exact Hi. unfold delta in S. rewrite Z.eqb_refl in S. lra.
Qed.

Lemma init_start n lam fuel (s : qpb N) h M (g lb ub : option arr) nWSR (xOpt yOpt : option arr) guess k s' :
  qok n s -> startable n s -> harg_ok (N := N) n h -> matrix_arg n h = Some M -> stored_exactly n M ->
  strong n (entries M) lam -> eps < lam -> 0 < lam ->
  olen (N := N) n g -> olen (N := N) n lb -> olen (N := N) n ub -> olen (N := N) n xOpt -> olen (N := N) n yOpt -> (forall gb, guess = Some gb -> gwf gb) ->
  (forall i, (0 <= i < n)%Z -> fitting eps yOpt guess i) ->
  o_enableRegularisation (q_opts s) = false -> tuned eps zero infty (q_opts s) -> 0 <= o_boundRelaxation (q_opts s) -> o_enableEqualities (q_opts s) = false ->
  (o_enableRamping (q_opts s) = true -> (2 <= n)%Z /\ 0 <= o_initialRamping (q_opts s) /\ 0 <= o_finalRamping (q_opts s)) ->
  qb_init (N := N) junk cpu fuel h g lb ub nWSR xOpt yOpt guess None s = Ok (SUCCESSFUL_RETURN, k, s') ->
  exists s3 l0 l1 Hu, begun eps zero infty n Hu s3 l0 l1 /\ opt eps zero infty 0 n s3 Hu /\ q_status s3 = QPS_AUXILIARYQPSOLVED /\ q_opts s3 = q_opts s /\ in_use n (entries M) Hu /\
    q_infeasible s' = false /\
    hotstart (N := N) junk cpu fuel (taken (N := N) n g 0) (Some (taken (N := N) n lb (- infty))) (Some (taken (N := N) n ub infty)) nWSR None s3 = Ok (SUCCESSFUL_RETURN, k, s').
Proof.
  intros OK ST Hh EM SM SG LE LA Hg Hl Hu Hx Hy HG FI OR OT OB OQ RA E. unfold qb_init in E.
  assert (Hn : (0 < n)%Z) by (destruct OK as (? & ? & [] & _); auto).
  assert (NV : nV s = n) by (destruct OK as (l0 & l1 & W & _); exact (w_nv _ _ _ _ W)).
  rewrite NV in E. destruct (Z.eqb_spec n 0); [lia|].
  assert (R1 : exists s1, (if isInitialised s then '(_, s) <- qb_reset (N := N) s ;; Ok s else Ok s) = Ok s1 /\ xwf (N := N) n s1 /\ (q_htype s1 = HST_UNKNOWN \/ q_htype s1 = HST_POSDEF) /\
    usingReg s1 = false /\ ramps eps zero infty n s1 /\ q_opts s1 = q_opts s).
  { destruct (isInitialised s) eqn:EI.
    - destruct (wp_inv _ _ (reset_ok n s OK)) as ((r, s1) & Er & _ & (l0 & l1 & W & V & _) & Q & _ & _ & _ & O & _). exists s1. rewrite Er. split; [reflexivity|].
      destruct (V Q) as (-> & -> & U). split; [split; auto|]. unfold qb_reset in Er. rewrite NV in Er. destruct (Z.eqb_spec n 0); [lia|].
      destruct (for_up 0 (n * n) _ (q_R s)) as [R| |]; try discriminate Er. injection Er as <- <-. split; [now left|].
      split; [change (Rltb zero 0 = false); apply Rltb_false; lra|]. split; [|reflexivity]. intros EN. destruct (RA EN) as (A & B & C). cbn. split; [exact A|]. split; [lia|auto].
    - exists s. split; [reflexivity|]. destruct ST as [ST|(S1 & S2 & S3)]; [congruence|]. unfold isInitialised, is_qps in EI. destruct (qps_eq_dec (q_status s) QPS_NOTINITIALISED) as [Q|Q]; [|discriminate EI].
      destruct OK as (l0 & l1 & W & V & _). destruct (V Q) as (-> & -> & U). split; [split; auto|]. auto. }
  destruct R1 as (s1 & E1 & W1 & HT1 & UR1 & RA1 & O1). rewrite E1 in E. cbn [bind] in E. clear E1.
  destruct (wp_inv _ _ (guessDefined_ok guess (nV s1) HG)) as (ok & EG & _). rewrite EG in E. cbn [bind] in E.
  destruct (negb ok); [discriminate E|].
  destruct (match xOpt with None => _ | Some _ => _ end) in E; [discriminate E|].
  destruct (wp_inv _ _ (setupQPdata_ok cpu n h g lb ub s1 W1 Hh Hg Hl Hu)) as ((r, s2) & E2 & W2 & Q2 & _ & O2 & RS). rewrite E2 in E. cbn [bind] in E. clear E2.
  destruct RS as [(-> & _)|(-> & _ & D2)]; [discriminate E|]. change (negb (SUCCESSFUL_RETURN =r? SUCCESSFUL_RETURN)) with false in E. cbn iota in E.
  assert (F2 : q_H s2 = Some M /\ q_htype s2 = q_htype s1 /\ usingReg s2 = usingReg s1 /\ ramps eps zero infty n s2 /\
    q_g s2 = taken (N := N) n g 0 /\ q_lb s2 = taken (N := N) n lb (- infty) /\ q_ub s2 = taken (N := N) n ub infty).
  { assert (NV1 : nV s1 = n) by exact (w_nv _ _ _ _ (proj1 W1)). subst s2. unfold matrix_arg in EM. unfold qb_setH. destruct h as [M0|[a|]]; [| |discriminate EM].
    - subst M0. repeat split; auto; apply RA1; assumption.
    - rewrite NV1. injection EM as <-. repeat split; auto; apply RA1; assumption. }
  destruct F2 as (HM2 & HT2 & UR2 & RA2 & EG2 & EL2 & EU2). clear D2.
  unfold solveInitialQP in E. assert (HN : olen (N := N) (n * n) None) by exact I.
  destruct (wp_inv _ _ (wp_conj _ _ _ (prepareInitial_exact eps zero infty junk J n s2 xOpt yOpt guess None W2 Hx Hy HN HG) (prepareInitial_frame n s2 xOpt yOpt guess None W2 Hx Hy HN HG)))
    as (((r3, ((g0, lb0), ub0)), s3) & E3 & P & F).
  match type of E with bind ?m _ = _ => assert (E4 : m = Ok (r3, (g0, lb0, ub0), s3)) by exact E3; rewrite E4 in E; clear E4 end. cbn [bind] in E.
  destruct (r3 =r? SUCCESSFUL_RETURN) eqn:ER; cbn [negb] in E; [apply rv_eqb_eq in ER; subst r3|injection E as -> _ _; discriminate ER].
  destruct (P eq_refl) as ((s5 & l0 & l1 & PR) & HC & -> & -> & ->). clear P. destruct (F eq_refl) as (s1' & ED & FX). clear F E3. rewrite EG2, EL2, EU2 in E.
  assert (HOT : q_infeasible s' = false /\ hotstart (N := N) junk cpu fuel (taken (N := N) n g 0) (Some (taken (N := N) n lb (- infty))) (Some (taken (N := N) n ub infty)) nWSR None s3 = Ok (SUCCESSFUL_RETURN, k, s')).
  { match type of E with bind ?m _ = _ => change m with (hotstart (N := N) junk cpu fuel (taken (N := N) n g 0) (Some (taken (N := N) n lb (- infty))) (Some (taken (N := N) n ub infty)) nWSR None s3) in E end.
    destruct (hotstart _ _ _ _ _ _ _ _ s3) as [((r4, k4), s4)| |]; try discriminate E. cbn [bind] in E.
    destruct (q_infeasible s4) eqn:EI; [discriminate E|]. destruct (q_unbounded s4); [discriminate E|].
    destruct (negb (r4 =r? SUCCESSFUL_RETURN) && negb (r4 =r? RET_MAX_NWSR_REACHED)); [discriminate E|]. injection E as -> -> ->. auto. }
  destruct HOT as (INF & HOT). clear E.
  set (s0 := set_q_status (N := N) QPS_NOTINITIALISED s2) in *.
  assert (W0 : qwf n s0 [] []) by (apply (wf_same n s2); [apply W2|samearr]).
  destruct (C58_hessian_type eps zero infty n s0 [] [] M (entries M) eps_nn W0 HM2 (stored_represents n M SM)) as (rd' & sd & ED' & (od & SD) & OD & _ & KP & DT).
  pose proof (eq_trans (eq_sym ED) ED') as Q. injection Q as <- <-. clear ED'.
  assert (DG : forall i, (0 <= i < n)%Z -> lam <= entries M i i) by (intros i Hi; now apply diag_strong with n).
  change (q_htype s0) with (q_htype s2) in KP, DT. rewrite HT2 in KP, DT.
  assert (TY : exists Hu, (q_htype s1' = HST_IDENTITY \/ q_htype s1' = HST_POSDEF) /\ in_use n (entries M) Hu /\ (hfix s1' s3 -> hess eps zero infty n s3 Hu)).
  { assert (PD : q_htype s1' = HST_POSDEF -> exists Hu, (q_htype s1' = HST_IDENTITY \/ q_htype s1' = HST_POSDEF) /\ in_use n (entries M) Hu /\ (hfix s1' s3 -> hess eps zero infty n s3 Hu)).
    { intros TP. exists (entries M). split; [auto|]. split; [now left|]. intros HF. unfold hess. rewrite (x_h _ _ HF), TP. exists M. split; [|apply stored_mat_ok; [lia|exact SM]].
      rewrite (x_H _ _ HF), SD. exact HM2. }
    destruct HT1 as [U|U]; [|apply PD; rewrite U in KP; destruct KP as (_ & ->); [discriminate|reflexivity]].
    specialize (DT U). unfold detected in DT. destruct (q_htype s1') eqn:T; try contradiction.
    - destruct DT as (_ & Z). specialize (Z 0%Z 0%Z ltac:(lia) ltac:(lia)). specialize (DG 0%Z ltac:(lia)). pose proof (Rle_abs (entries M 0 0)). lra.
    - exists delta. split; [auto|]. split; [right; split; [reflexivity|apply DT]|]. intros HF. unfold hess. rewrite (x_h _ _ HF), T. reflexivity.
    - apply PD; reflexivity.
    - destruct DT as (_ & i & Hi & Z). specialize (DG i Hi). lra. }
  destruct TY as (Hu' & TY & IU & HE).
  assert (HF : hfix s1' s3) by (apply FX; destruct TY as [-> | ->]; discriminate). specialize (HE HF).
  assert (O3 : q_opts s3 = q_opts s).
  { rewrite (x_o _ _ HF), OD by (destruct TY as [-> | ->]; discriminate). cbn. now rewrite O2, O1. }
  exists s3, l0, l1, Hu'. destruct PR.
  assert (SE : forall i, (0 <= i < n)%Z -> settled (sv eps zero infty s3 i)).
  { intros i Hi. apply settled_active; [destruct (pr_def i Hi) as [-> | X]; unfold good_status; auto|]. intros U. destruct (pr_def i Hi) as [X|X]; rewrite U in X; discriminate X. }
  assert (UR3 : usingReg s3 = false). { unfold usingReg. rewrite (x_reg _ _ HF), SD. cbn. unfold usingReg in UR2, UR1. rewrite UR1 in UR2. exact UR2. }
  split; [|split; [|split; [exact pr_stat|split; [exact O3|split; [exact IU|split; [exact INF|exact HOT]]]]]].
  - constructor; auto.
    + intros X. rewrite HC in X by reflexivity. discriminate X.
    + intros _. now rewrite O3.
    + now rewrite O3.
    + intros ER. rewrite O3, <- O1, <- O2 in ER. specialize (RA2 ER). rewrite (x_r0 _ _ HF), (x_r1 _ _ HF), (x_ro _ _ HF), SD. exact RA2.
  - split; [exact (pr_stationary Hu' HE)|]. intros i Hi.
    assert (OB2 : 0 <= o_boundRelaxation (q_opts s2)) by (now rewrite O2, O1).
    destruct (auxb_bounds _ _ _ _ _ _ _ _ OB2 (SE i Hi) (pr_bounds i Hi)) as (B1 & B2 & B3 & _).
    assert (TN : tv eps zero infty s3 i <> ST_EQUALITY).
    { apply (x_t _ _ HF); [rewrite OD by (destruct TY as [-> | ->]; discriminate); cbn; now rewrite O2, O1|]. rewrite SD. cbn. rewrite (w_nV _ _ _ _ (proj1 W2)). exact Hi. }
    destruct pr_wf5 as (m0 & m1 & W5). rewrite <- pr_type in TN.
    pose proof (auxStatus_fitting eps zero infty n s5 m0 m1 xOpt yOpt guess i (sv eps zero infty s3 i) W5 eps_nn Hi Hy HG (pr_ws i Hi) (pr_def i Hi) TN (FI i Hi)) as X.
    rewrite <- (pr_y i Hi) in X. unfold opt_bd. destruct (SE i Hi) as [S|[S|S]]; rewrite S in *.
    + split; [exact X|]. lra.
    + specialize (B2 eq_refl). split; [lra|]. split; lra.
    + specialize (B3 eq_refl). split; [lra|]. split; lra.
Qed.
End X11.
