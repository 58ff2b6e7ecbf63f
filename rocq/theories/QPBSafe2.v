(** Memory safety of QProblemB, continued: auxiliary problem, working set
    changes and the step. *)
From Verif Require Import Base Types Num Indexlist IndexlistProofs SubjectTo SubjectToProofs SubjectToProofs2 Options Flipper PropFlipper
  Utils Matrices CsLib LinAlg SafeLib MatSafe QProblemB QPBSafe.

Ltac frm := constructor; cbn; auto using oframe_refl, hframe_refl.
Ltac samearr := unfold same_arrays; cbn; tauto.

(** lists of statuses and types *)
Definition gwf (gb : subjectTo) : Prop :=
  (exists a b, st_wf gb a b) /\ forall i, 0 <= i < st_n gb -> good_status (zs (st_status gb) i).
Lemma gwf_status gb i : gwf gb -> wp (st_getStatus gb i) (fun v => good_status v /\ (0 <= i < st_n gb -> v = zs (st_status gb) i) /\ (v <> ST_UNDEFINED -> 0 <= i < st_n gb)).
Proof.
  intros ((a & b & W) & G). unfold st_getStatus. destruct (Z.leb_spec 0 i); destruct (Z.ltb_spec i (st_n gb)); cbn [andb].
  - rewrite (rd_ok ST_UNDEFINED) by (rewrite (wf_stat _ _ _ W); lia). cbn. split; [apply G; lia|]. split; [auto|lia].
  - cbn. split; [unfold good_status; auto|]. split; [lia|congruence].
  - cbn. split; [unfold good_status; auto|]. split; [lia|congruence].
  - cbn. split; [unfold good_status; auto|]. split; [lia|congruence].
Qed.

Section QPBSafe2.
Context {N : Num}.
Notation arr := (list N).
Notation qpb := (qpb N).
Hint Resolve oframe_refl hframe_refl sfr_refl sst_refl : core.

(** everything the factorisation may change *)
Record cfr (s s' : qpb) : Prop := {
  c_freeH : q_freeH s' = q_freeH s; c_g : q_g s' = q_g s; c_lb : q_lb s' = q_lb s; c_ub : q_ub s' = q_ub s;
  c_b : q_bounds s' = q_bounds s; c_x : q_x s' = q_x s; c_y : q_y s' = q_y s; c_tau : q_tau s' = q_tau s;
  c_cnt : q_count s' = q_count s; c_tmp : q_tmp s' = q_tmp s; c_r0 : q_ramp0 s' = q_ramp0 s; c_r1 : q_ramp1 s' = q_ramp1 s;
  c_ro : q_rampOffset s' = q_rampOffset s; c_fl : q_flip s' = q_flip s; c_o : oframe (q_opts s) (q_opts s');
  c_h : hframe (q_htype s) (q_htype s') }.
Lemma cfr_refl s : cfr s s.
Proof. constructor; auto. Qed.
Lemma cfr_trans a b c : cfr a b -> cfr b c -> cfr a c.
Proof. intros [] []. constructor; try congruence; eauto using oframe_trans, hframe_trans. Qed.
Hint Resolve cfr_refl : core.

Lemma regularise_cfr (s s' : qpb) v M : s' = set_q_H M (set_q_regVal v s) -> cfr s s' /\ sst s s'.
Proof. intros ->. split; frm. Qed.
Lemma cholesky_cfr (s s' : qpb) R h o : s' = set_q_htype h (set_q_opts o (set_q_R R s)) -> sfr s s' -> cfr s s' /\ sst s s'.
Proof. intros -> []. split; frm. Qed.

Lemma setupInitialCholesky_safe n (s : qpb) l0 l1 : qwf n s l0 l1 -> hk s ->
  wp (setupInitialCholesky s) (fun '(r, s') => qwf n s' l0 l1 /\ hk s' /\ cfr s s' /\ sst s s' /\ r <> RET_MAX_NWSR_REACHED).
Proof.
  intros W K. unfold setupInitialCholesky. sstep. eapply wp_mono; [apply (nFV_safe n s l0 l1 W)|]. intros fv _. sstep.
  eapply wp_mono with (P := fun '(r, s') => qwf n s' l0 l1 /\ hk s' /\ cfr s s' /\ sst s s').
  { destruct (_ && _); [|cbn; auto]. eapply wp_mono; [apply (regulariseHessian_safe n s l0 l1 W K)|].
    intros [r s1] (W1 & K1 & v & M & E & _). split; [exact W1|]. split; [exact K1|]. eapply regularise_cfr; eauto. }
  intros [r s1] (W1 & K1 & C1 & S1). destruct (negb _); [cbn; split; [|split; [|split; [|split; [|discriminate]]]]; auto|].
  sstep. eapply wp_mono; [apply (computeCholesky_safe n s1 l0 l1 W1 K1)|]. intros [rc s2] (W2 & F2 & _ & _ & R2 & h2 & o2 & E2 & _).
  destruct (cholesky_cfr _ _ _ _ _ E2 F2) as (C2 & S2). pose proof (hk_frame _ _ F2 K1) as K2.
  assert (Fin : forall rc s3, qwf n s3 l0 l1 -> hk s3 -> cfr s s3 -> sst s s3 ->
    wp (if negb (rc =r? SUCCESSFUL_RETURN) then Ok (RET_INIT_FAILED_CHOLESKY, s3) else Ok (SUCCESSFUL_RETURN, set_q_haveChol true s3))
      (fun '(r, s') => qwf n s' l0 l1 /\ hk s' /\ cfr s s' /\ sst s s' /\ r <> RET_MAX_NWSR_REACHED)).
  { intros rc' s3 W3 K3 C3 S3. destruct (negb _); cbn [wp]; (split; [|split; [|split; [|split; [|discriminate]]]]); auto.
    - apply (wf_same n s3); [exact W3|samearr].
    - destruct C3; frm.
    - destruct S3; frm. }
  cbv zeta. destruct (rc =r? RET_HESSIAN_NOT_SPD).
  - sstep. eapply wp_mono; [apply (regulariseHessian_safe n s2 l0 l1 W2 K2)|]. intros [r3 s3] (W3 & K3 & v3 & M3 & E3 & _).
    destruct (regularise_cfr _ _ _ _ E3) as (C3 & S3).
    destruct (negb _). { cbn. split; [exact W3|]. split; [exact K3|]. split; [eauto using cfr_trans|]. split; [eauto using sst_trans|discriminate]. }
    sstep. eapply wp_mono; [apply (computeCholesky_safe n s3 l0 l1 W3 K3)|]. intros [rc4 s4] (W4 & F4 & _ & _ & R4 & h4 & o4 & E4 & _).
    destruct (cholesky_cfr _ _ _ _ _ E4 F4) as (C4 & S4). apply Fin; auto; [exact (hk_frame _ _ F4 K3)|eauto 6 using cfr_trans|eauto 6 using sst_trans].
  - apply Fin; auto; eauto using cfr_trans, sst_trans.
Qed.

(** without a Hessian: nothing is free and regularisation is off *)
Lemma setupInitialCholesky_safe0 n (s : qpb) l1 : qwf n s [] l1 -> o_enableRegularisation (q_opts s) = false ->
  wp (setupInitialCholesky s) (fun '(r, s') => qwf n s' [] l1 /\ cfr s s' /\ sst s s' /\ r <> RET_MAX_NWSR_REACHED).
Proof.
  intros W ER. unfold setupInitialCholesky. sstep. eapply wp_mono; [apply (nFV_safe n s [] l1 W)|]. intros fv _.
  rewrite ER, andb_false_r. cbn [bind]. change (negb (SUCCESSFUL_RETURN =r? SUCCESSFUL_RETURN)) with false. cbn iota.
  sstep. eapply wp_mono; [apply (computeCholesky_safe0 n s [] l1 W); auto|]. intros [rc s2] (W2 & F2 & _ & _ & R2 & h2 & o2 & E2 & _).
  destruct (cholesky_cfr _ _ _ _ _ E2 F2) as (C2 & S2). cbv zeta.
  assert (Fin : forall rc s3, qwf n s3 [] l1 -> cfr s s3 -> sst s s3 ->
    wp (if negb (rc =r? SUCCESSFUL_RETURN) then Ok (RET_INIT_FAILED_CHOLESKY, s3) else Ok (SUCCESSFUL_RETURN, set_q_haveChol true s3))
      (fun '(r, s') => qwf n s' [] l1 /\ cfr s s' /\ sst s s' /\ r <> RET_MAX_NWSR_REACHED)).
  { intros rc' s3 W3 C3 S3. destruct (negb _); cbn [wp]; (split; [|split; [|split; [|discriminate]]]); auto.
    - apply (wf_same n s3); [exact W3|samearr].
    - destruct C3; frm.
    - destruct S3; frm. }
  destruct (rc =r? RET_HESSIAN_NOT_SPD); [|now apply Fin].
  unfold regulariseHessian. assert (ER2 : o_enableRegularisation (q_opts s2) = false) by (destruct (f_o _ _ F2) as [e ->]; exact ER).
  rewrite ER2. cbn [negb bind]. change (negb (SUCCESSFUL_RETURN =r? SUCCESSFUL_RETURN)) with false. cbn iota.
  sstep. eapply wp_mono; [apply (computeCholesky_safe0 n s2 [] l1 W2); auto|]. intros [rc4 s4] (W4 & F4 & _ & _ & R4 & h4 & o4 & E4 & _).
  destruct (cholesky_cfr _ _ _ _ _ E4 F4) as (C4 & S4). apply Fin; auto; [eauto using cfr_trans|eauto using sst_trans].
Qed.

(** ** initial working set *)
Lemma auxStatus_safe n (s : qpb) l0 l1 (xOpt yOpt : option arr) guess i : qwf n s l0 l1 -> olen n xOpt -> olen n yOpt ->
  (forall gb, guess = Some gb -> gwf gb) -> 0 <= i < n -> wp (auxStatus xOpt yOpt guess s i) (fun _ => True).
Proof.
  intros W Hx Hy Hg Hi. unfold auxStatus. rewrite (w_type _ _ _ _ W i Hi). cbn [bind].
  assert (EqOr : forall v, wp v (fun _ => True) -> wp (if is_stt (zt (st_type (q_bounds s)) i) ST_EQUALITY then Ok ST_LOWER else v) (fun _ => True)).
  { intros v Hv. destruct (is_stt _ _); [exact I|exact Hv]. }
  destruct guess as [gb|].
  { apply EqOr. eapply wp_mono; [apply gwf_status, Hg; reflexivity|auto]. }
  destruct yOpt as [y|].
  { cbn in Hy. sstep. sstep; [lia|]. sstep; [exact I|]. sstep; [exact I|]. now apply EqOr. }
  destruct xOpt as [x|]; [|exact I].
  cbn in Hx. sstep. sstep; [lia|]. sstep. sstep; [rewrite (w_lb _ _ _ _ W); lia|]. sstep; [exact I|].
  sstep. sstep; [rewrite (w_ub _ _ _ _ W); lia|]. sstep; [exact I|]. now apply EqOr.
Qed.

(** working sets in which every bound has a status *)
Definition full (n : Z) (b : subjectTo) : Prop :=
  st_n b = n /\ (exists a0 a1, st_wf b a0 a1) /\ forall i, 0 <= i < n -> zs (st_status b) i = ST_INACTIVE \/ is_active (zs (st_status b) i) = true.
Lemma obtainAux_safe n (s : qpb) l0 l1 (xOpt yOpt : option arr) guess : qwf n s l0 l1 -> olen n xOpt -> olen n yOpt ->
  (forall gb, guess = Some gb -> gwf gb) ->
  wp (obtainAuxiliaryWorkingSet xOpt yOpt guess s (st_new (nV s))) (fun '(r, aux) => r = SUCCESSFUL_RETURN -> full n aux).
Proof.
  intros W Hx Hy Hg. unfold obtainAuxiliaryWorkingSet. rewrite (w_nv _ _ _ _ W). pose proof (w_n _ _ _ _ W) as Hn. sstep.
  apply wp_forb_up with (I := fun i aux => st_n aux = n /\ (exists a0 a1, st_wf aux a0 a1) /\
     (forall k, 0 <= k < i -> zs (st_status aux) k = ST_INACTIVE \/ is_active (zs (st_status aux) k) = true) /\
     (forall k, i <= k < n -> zs (st_status aux) k = ST_UNDEFINED)) (J := fun _ => True).
  - lia.
  - unfold st_new, st_init. destruct (Z.ltb_spec n 0); [lia|]. cbn [snd st_n st_status]. split; [reflexivity|].
    split. { exists [], []. pose proof (wf_new n ltac:(lia)) as WN. unfold st_new, st_init in WN. destruct (Z.ltb_spec n 0); [lia|]. exact WN. }
    split; [intros; lia|]. intros k Hk. rewrite zn_repeat by lia. reflexivity.
  - intros i aux Hi (En & (a0 & a1 & WA) & Done & Todo). sstep. eapply wp_mono; [apply (auxStatus_safe n s l0 l1); auto|]. intros v _.
    assert (Hi' : 0 <= i < st_n aux) by lia.
    destruct (sts_eq_dec v ST_INACTIVE) as [Ev|Ev]; [|destruct (is_active v) eqn:Av].
    1,2: destruct (setup_ok KBounds aux a0 a1 i v WA Hi') as (aux' & E & WA' & M & SE);
         [rewrite Todo by lia; discriminate|rewrite Todo by lia; reflexivity|auto|];
         rewrite E; cbn; destruct M as (M1 & _); (split; [congruence|]); (split; [eauto|]); rewrite SE;
         pose proof (wf_stat _ _ _ WA); (split; intros k Hk; rewrite zn_zupd by lia; destruct (Z.eqb_spec k i); auto; try lia; [apply Done; lia|apply Todo; lia]).
    unfold st_setup. destruct (negb _); [exact I|]. destruct v; try congruence; try discriminate; exact I.
  - intros aux (En & WA & Done & _) _. repeat split; auto.
  - intros e _. cbn. discriminate.
Qed.

(** ** gradient and bounds of the auxiliary problem *)
Lemma copy_loop n (src dst : arr) (Q : arr -> Prop) : n <= zlen src -> n <= zlen dst -> (forall d, zlen d = zlen dst -> Q d) ->
  wp (for_up 0 n (fun i a => v <- rd src i ;; wr a i v) dst) Q.
Proof.
  intros Hs Hd HQ. apply wp_for_len; auto. intros i a Hi La. sstep. sstep; [lia|]. apply wp_wrv; [lia|congruence].
Qed.
Lemma fill1 n (dst : arr) (f : Z -> res N) (Q : arr -> Prop) : n <= zlen dst -> (forall i, 0 <= i < n -> wp (f i) (fun _ => True)) ->
  (forall d, zlen d = zlen dst -> Q d) -> wp (for_up 0 n (fun i a => v <- f i ;; wr a i v) dst) Q.
Proof.
  intros Hd Hf HQ. apply wp_for_len; auto. intros i a Hi La. sstep. eapply wp_mono; [apply Hf; lia|]. intros v _. apply wp_wrv; [lia|congruence].
Qed.
Lemma setupAuxiliaryQPgradient_safe n (s : qpb) l0 l1 : qwf n s l0 l1 -> hk s ->
  wp (setupAuxiliaryQPgradient s) (fun s' => qwf n s' l0 l1 /\ exists g, s' = set_q_g g s).
Proof.
  intros W K. unfold setupAuxiliaryQPgradient. rewrite (w_nv _ _ _ _ W).
  pose proof (w_g _ _ _ _ W) as Lg. pose proof (w_x _ _ _ _ W) as Lx. pose proof (w_y _ _ _ _ W) as Ly.
  sstep. eapply wp_mono with (P := fun g => zlen g = n).
  2:{ intros g Lg'. cbn [wp]. split; [now apply wf_set_g|eauto]. }
  assert (L1 : wp (for_up 0 n (fun i g => a <- rd (q_y s) i ;; wr g i a) (q_g s)) (fun g => zlen g = n)) by (apply copy_loop; lia).
  assert (L2 : forall f, wp (for_up 0 n (fun i g => a <- rd (q_y s) i ;; b <- rd (q_x s) i ;; wr g i (f a b)) (q_g s)) (fun g => zlen g = n)).
  { intros f. apply wp_for_len; [|congruence]. intros i a Hi La. sstep. sstep; [lia|]. sstep. sstep; [lia|]. apply wp_wrv; [lia|congruence]. }
  assert (L3 : plainH s = true -> wp (g <- for_up 0 n (fun i g => a <- rd (q_y s) i ;; wr g i a) (q_g s) ;;
           M <- q_theH s ;; m_times M 1 nm1 (q_x s) n n1 g n) (fun g => zlen g = n)).
  { intros P. sstep. eapply wp_mono; [exact L1|]. intros g Lg'. cbn beta in Lg'. sstep. apply (w_theH n s l0 l1 W _ K P). intros M HM.
    eapply wp_mono; [apply (m_times_safe n M HM); lia|]. intros; congruence. }
  destruct (q_htype s) eqn:HT; try (apply L3; unfold plainH; rewrite HT; reflexivity).
  - sstep; [apply L2|exact L1].
  - apply (L2 (fun a b => a -' b)).
Qed.

Lemma status_match n (s : qpb) l0 l1 i : qwf n s l0 l1 -> 0 <= i < n -> wp (st_getStatus (q_bounds s) i) (fun v => v = zs (st_status (q_bounds s)) i).
Proof. intros W Hi. rewrite (w_status _ _ _ _ W i Hi). reflexivity. Qed.

Lemma setupAuxiliaryQPbounds_safe n (s : qpb) l0 l1 relax : qwf n s l0 l1 ->
  wp (setupAuxiliaryQPbounds relax s) (fun '(r, s') => qwf n s' l0 l1 /\ exists lb ub, s' = set_q_ub ub (set_q_lb lb s)).
Proof.
  intros W. unfold setupAuxiliaryQPbounds. rewrite (w_nv _ _ _ _ W).
  pose proof (w_lb _ _ _ _ W) as Ll. pose proof (w_ub _ _ _ _ W) as Lu. pose proof (w_x _ _ _ _ W) as Lx.
  sstep. apply wp_forb_inv with (I := fun '(lb, ub) => zlen lb = n /\ zlen ub = n) (J := fun '(lb, ub) => zlen lb = n /\ zlen ub = n); auto.
  - intros i [lb ub] Hi (A & B). rewrite (w_status _ _ _ _ W i Hi), (w_type _ _ _ _ W i Hi). cbn [bind].
    sstep. sstep; [lia|]. destruct (zs _ i); repeat (sstep; lens); cbn; auto; try (split; lia).
  - intros [lb ub] (A & B). cbn [wp]. split; [apply wf_set_ub; [apply wf_set_lb|]; auto|eauto].
  - intros [lb ub] (A & B). cbn [wp]. split; [apply wf_set_ub; [apply wf_set_lb|]; auto|eauto].
Qed.

Lemma setupAuxiliaryQPsolution_safe n (s : qpb) l0 l1 (xOpt yOpt : option arr) : qwf n s l0 l1 -> olen n xOpt -> olen n yOpt ->
  wp (setupAuxiliaryQPsolution xOpt yOpt s) (fun s' => qwf n s' l0 l1 /\ exists x y, s' = set_q_y y (set_q_x x s)).
Proof.
  intros W Hx Hy. unfold setupAuxiliaryQPsolution. rewrite (w_nv _ _ _ _ W).
  pose proof (w_x _ _ _ _ W) as Lx. pose proof (w_y _ _ _ _ W) as Ly.
  assert (F : forall (o : option arr) (dst : arr), olen n o -> zlen dst = n ->
    wp (for_up 0 n (fun i a => v <- match o with Some o => rd o i | None => Ok n0 end ;; wr a i v) dst) (fun d => zlen d = n)).
  { intros o dst Ho Hd. apply fill1; [lia| |congruence]. intros i Hi. destruct o; cbn in Ho; [|exact I]. apply wp_rdv; auto. lia. }
  sstep. eapply wp_mono; [now apply F|]. intros x Lx'. sstep. eapply wp_mono; [now apply F|]. intros y Ly'. cbn [wp].
  split; [apply wf_set_y; [apply wf_set_x|]; auto|eauto].
Qed.

Definition tri_len (n : Z) (t : arr * arr * arr) : Prop := let '(lb, ub, y) := t in zlen lb = n /\ zlen ub = n /\ zlen y = n.
Lemma performDriftCorrection_safe n (s : qpb) l0 l1 : qwf n s l0 l1 -> hk s ->
  wp (performDriftCorrection s) (fun s' => qwf n s' l0 l1 /\ exists g y lb ub, s' = set_q_g g (set_q_y y (set_q_ub ub (set_q_lb lb s)))).
Proof.
  intros W K. unfold performDriftCorrection. rewrite (w_nv _ _ _ _ W).
  pose proof (w_lb _ _ _ _ W) as Ll. pose proof (w_ub _ _ _ _ W) as Lu. pose proof (w_x _ _ _ _ W) as Lx. pose proof (w_y _ _ _ _ W) as Ly.
  sstep. apply wp_for_inv with (I := tri_len n); [cbn; auto| |].
  - intros i [[lb ub] y] Hi (A & B & C). rewrite (w_type _ _ _ _ W i Hi). cbn [bind].
    destruct (zt _ i); try (cbn; auto; fail).
    + rewrite (w_status _ _ _ _ W i Hi). cbn [bind]. do 4 (sstep; sstep; [lia|]).
      destruct (zs _ i); try (cbn; auto; fail); repeat (sstep; lens); cbn; repeat split; lia.
    + repeat (sstep; lens); cbn; repeat split; lia.
  - intros [[lb ub] y] (A & B & C).
    eapply wp_mono; [apply (setupAuxiliaryQPgradient_safe n _ l0 l1); [apply wf_set_y; [apply wf_set_ub; [apply wf_set_lb|]|]; auto|exact K]|].
    intros s' (W' & g & ->). split; [exact W'|eauto 6].
Qed.

Lemma performRamping_safe n (s : qpb) l0 l1 : qwf n s l0 l1 -> hk s ->
  wp (performRamping s) (fun s' => qwf n s' l0 l1 /\
    exists g y lb ub, s' = set_q_rampOffset (q_rampOffset s + 1) (set_q_g g (set_q_y y (set_q_ub ub (set_q_lb lb s))))).
Proof.
  intros W K. unfold performRamping. rewrite (w_nv _ _ _ _ W).
  pose proof (w_lb _ _ _ _ W) as Ll. pose proof (w_ub _ _ _ _ W) as Lu. pose proof (w_x _ _ _ _ W) as Lx. pose proof (w_y _ _ _ _ W) as Ly.
  sstep. apply wp_for_inv with (I := tri_len n); [cbn; auto| |].
  - intros i [[lb ub] y] Hi (A & B & C). rewrite (w_type _ _ _ _ W i Hi). cbn [bind].
    sstep. sstep; [lia|]. rewrite (w_status _ _ _ _ W i Hi). cbn [bind].
    destruct (zt _ i); try (cbn; auto; fail); try (repeat (sstep; lens); cbn; repeat split; lia).
  - intros [[lb ub] y] (A & B & C). sstep.
    eapply wp_mono; [apply (setupAuxiliaryQPgradient_safe n _ l0 l1); [apply wf_set_y; [apply wf_set_ub; [apply wf_set_lb|]|]; auto|exact K]|].
    intros s' (W' & g & ->). cbn [wp]. split; [apply (wf_same n _ _ _ _ W'); samearr|eauto 6].
Qed.

Lemma updateFarBounds_safe (far : N) nR (lbn ubn : option arr) (s : qpb) (lf uf : arr) n : nV s = n -> olen n lbn -> olen n ubn -> zlen lf = n -> zlen uf = n ->
  wp (updateFarBounds far nR lbn ubn s lf uf) (fun '(l, u) => zlen l = n /\ zlen u = n).
Proof.
  intros E Hl Hu A B. unfold updateFarBounds. rewrite E. apply wp_for_inv with (I := fun '(l, u) => zlen l = n /\ zlen u = n); auto.
  intros i [l u] Hi (A' & B'). cbv zeta. sstep. eapply wp_mono with (P := fun _ => True).
  { destruct lbn; cbn in Hl; [|exact I]. sstep. sstep; [lia|exact I]. }
  intros v _. sstep. sstep; [lia|]. sstep. eapply wp_mono with (P := fun _ => True).
  { destruct ubn; cbn in Hu; [|exact I]. sstep. sstep; [lia|exact I]. }
  intros w _. sstep. sstep; [lia|]. cbn. lia.
Qed.

(** ** working set changes *)
Lemma chol_delete_safe n nfr k (R : arr) : nfr <= n -> 0 <= k -> zlen R = n * n ->
  wp (chol_delete n nfr k R) (fun R' => zlen R' = n * n).
Proof.
  intros Hn Hk L. unfold chol_delete.
  assert (C : forall (R' : arr) p q, zlen R' = n * n -> 0 <= p < nfr -> 0 <= q < nfr -> 0 <= p + n * q < zlen R').
  { intros R' p q -> Hp Hq. apply cm_idx; lia. }
  sstep. apply wp_for_inv with (I := fun R' => zlen R' = n * n); auto.
  - intros i R1 Hi L1. sstep. sstep; [apply C; lia|]. sstep. sstep; [apply C; lia|]. sstep. sstep. sstep. sstep. sstep; [apply C; lia|].
    sstep. sstep; [apply C; lia|]. apply wp_for_inv with (I := fun R' => zlen R' = n * n); auto; [lia|].
    intros j R2 Hj L2. sstep. sstep; [apply C; lia|]. sstep. sstep; [apply C; lia|]. sstep. sstep. sstep; [apply C; lia|].
    apply wp_wrv; [apply C; lia|]. intros; lia.
  - intros R1 L1. sstep. apply wp_for_inv with (I := fun R' => zlen R' = n * n); auto.
    + intros i R2 Hi L2. apply wp_for_inv with (I := fun R' => zlen R' = n * n); auto.
      intros j R3 Hj L3. sstep. sstep; [apply C; lia|]. apply wp_wrv; [apply C; lia|]. intros; lia.
    + intros R2 L2. apply wp_for_inv with (I := fun R' => zlen R' = n * n); auto.
      intros i R3 Hi L3. apply wp_wrv; [apply C; lia|]. intros; lia.
Qed.

Lemma zs_upd n (l : list SubjectToStatus) i v k : zlen l = n -> 0 <= i < n -> 0 <= k < n -> zs (zupd l i v) k = if k =? i then v else zs l k.
Proof. intros L Hi Hk. apply zn_zupd; lia. Qed.
Lemma zs_upd' n (s : qpb) l0 l1 i v k : qwf n s l0 l1 -> 0 <= i < n -> 0 <= k < n ->
  zs (zupd (st_status (q_bounds s)) i v) k = if k =? i then v else zs (st_status (q_bounds s)) k.
Proof. intros W Hi Hk. apply (zs_upd n); auto. rewrite (wf_stat _ _ _ (w_st _ _ _ _ W)). apply W. Qed.
Lemma wf_upd n (s : qpb) l0 l1 b i v l0' l1' : qwf n s l0 l1 -> 0 <= i < n -> good_status v -> st_wf b l0' l1' -> same_meta (q_bounds s) b ->
  st_status b = zupd (st_status (q_bounds s)) i v -> qwf n (set_q_bounds b s) l0' l1'.
Proof.
  intros W Hi Hv WB (E & _) SE. apply (wf_set_bounds n s l0 l1); auto.
  - rewrite E. apply W.
  - intros k Hk. rewrite SE, (zs_upd' n s l0 l1) by auto. destruct (k =? i); [auto|now apply W].
Qed.
Lemma pos_range (l : list Z) i : In i l -> 0 <= spec_pos l i < zlen l.
Proof. intros H. apply spec_pos_nonneg_In in H. pose proof (spec_pos_range l i). lia. Qed.

(** addBound; [v] is LOWER or UPPER *)
Definition added n (s s' : qpb) l0 l1 i v : Prop :=
  qwf n s' (spec_remove l0 i) (l1 ++ [i]) /\
  exists b R, s' = set_q_bounds b (set_q_R R s) /\ same_meta (q_bounds s) b /\ st_status b = zupd (st_status (q_bounds s)) i v.
Lemma addBound_safe n (s : qpb) l0 l1 i v upd : qwf n s l0 l1 -> In i l0 -> is_active v = true -> noUpdate s = false ->
  wp (addBound i v upd s) (fun '(r, s') => r = SUCCESSFUL_RETURN /\ added n s s' l0 l1 i v).
Proof.
  intros W Hi Hv NU. unfold addBound. rewrite NU.
  destruct (activate_ok (q_bounds s) l0 l1 i v (w_st _ _ _ _ W) Hi Hv) as (b & E & WB & Me & SE).
  pose proof (w_in0 _ _ _ _ W i Hi) as Ri.
  assert (Mv : forall R, zlen R = n * n ->
     wp ('(r, b) <- st_activate (q_bounds (set_q_R R s)) i v ;;
         Ok (if r =r? SUCCESSFUL_RETURN then SUCCESSFUL_RETURN else RET_ADDBOUND_FAILED, set_q_bounds b (set_q_R R s)))
     (fun '(r, s') => r = SUCCESSFUL_RETURN /\ added n s s' l0 l1 i v)).
  { intros R LR. cbn [q_bounds set_q_R]. rewrite E. cbn. split; [reflexivity|]. split; [|eauto 6].
    eapply wf_upd; [apply wf_set_R; [exact W|exact LR]|exact Ri| |exact WB|exact Me|exact SE]. unfold good_status; auto. }
  assert (SR : s = set_q_R (q_R s) s) by (destruct s; reflexivity).
  assert (Mv0 := Mv (q_R s) (w_R _ _ _ _ W)). rewrite <- SR in Mv0.
  destruct (is_qps _ _); [exact Mv0|].
  destruct (upd && plainH s); [|exact Mv0].
  rewrite (getIndex_spec _ l0 i (w_rep0 _ _ _ _ W)) by (exists i; split; [exact Hi|lia]). cbn [bind].
  pose proof (pos_range l0 i Hi). pose proof (w_len0 _ _ _ _ W).
  rewrite (w_nv _ _ _ _ W), (w_nfr _ _ _ _ W). sstep. sstep.
  eapply wp_mono; [apply (chol_delete_safe n); [lia|lia|apply W]|]. intros R LR. apply Mv, LR.
Qed.
Lemma added_frames n (s s' : qpb) l0 l1 i v : added n s s' l0 l1 i v -> sfr s s' /\ sst s s'.
Proof. intros (_ & b & R & -> & _). split; frm. Qed.

(** removeBound *)
Section Junk.
Variable junk : Z -> arr.
Hypothesis J : junk_ok junk.

Lemma snapshot n (s : qpb) l0 l1 : qwf n s l0 l1 ->
  wp (fl_set junk (q_flip s) (Some (q_bounds s)) (Some (q_R s)) None None None)
    (fun f => exists g, holds n 0 f g /\ sn_b g = Some (q_bounds s) /\ sn_R g = Some (q_R s)).
Proof.
  intros W. destruct (w_fl _ _ _ _ W) as (g & Hg).
  destruct (set_holds junk n 0 (q_flip s) g (mkSnap (Some (q_bounds s)) (Some (q_R s)) None None None) J) as (f & E & Hf); auto.
  - pose proof (w_n _ _ _ _ W). lia.
  - lia.
  - repeat split; cbn; auto. apply W.
  - cbn in E. rewrite E. cbn [wp]. eexists. split; [exact Hf|]. split; reflexivity.
Qed.

Definition flipped n (s s' : qpb) l0 l1 i : Prop :=
  qwf n s' l0 l1 /\ sfr s s' /\ sst s s' /\ q_status s <> QPS_PREPARINGAUXILIARYQP /\
  same_meta (q_bounds s) (q_bounds s') /\
  st_status (q_bounds s') = zupd (st_status (q_bounds s)) i (flip (zs (st_status (q_bounds s)) i)).
Definition removed n (s s' : qpb) l0 l1 i : Prop :=
  qwf n s' (l0 ++ [i]) (spec_remove l1 i) /\
  exists b R f, s' = set_q_bounds b (set_q_R R (set_q_flip f s)) /\ same_meta (q_bounds s) b /\
    st_status b = zupd (st_status (q_bounds s)) i ST_INACTIVE.

Lemma flip_active v : is_active v = true -> is_active (flip v) = true /\ (flip v = ST_LOWER \/ flip v = ST_UPPER).
Proof. destruct v; cbn; try discriminate; auto. Qed.

(** restoring: [s0] is the object before the bound was removed, [s] the current one *)
Lemma flipBound_safe n (s0 s : qpb) l0 l1 i f g : qwf n s0 l0 l1 -> In i l1 -> holds n 0 f g ->
  sn_b g = Some (q_bounds s0) -> sn_R g = Some (q_R s0) ->
  zlen (q_R s) = n * n -> q_flip s = f -> q_status s0 <> QPS_PREPARINGAUXILIARYQP ->
  (exists b R h, s = set_q_htype h (set_q_bounds b (set_q_R R (set_q_flip f s0))) /\ hframe (q_htype s0) h) ->
  wp (flipBound i s) (fun '(r, s') => r = SUCCESSFUL_RETURN /\ flipped n s0 s' l0 l1 i /\ q_htype s' = q_htype s /\
    (plainH s' = true -> q_flip s' = f)).
Proof.
  intros W Hi Hg Gb GR LR Ef NP (b0 & R0 & h & Es & Fh). unfold flipBound. rewrite Ef.
  pose proof (w_in1 _ _ _ _ W i Hi) as Ri. pose proof Hg as [hV hC hb hc hR hQ hT (S1 & _ & _)].
  rewrite Gb in hb. rewrite GR in hR, S1. cbn in S1.
  unfold fl_get. cbn [getArr]. rewrite hR. unfold fl_dimRQ. rewrite hV. cbn [use bind]. rewrite memcpy_full by auto. cbn [bind]. rewrite hb.
  destruct (flip_ok KBounds (q_bounds s0) l0 l1 i (w_st _ _ _ _ W) Hi) as (b & E & WB & Me & SE & _ & _). rewrite E. cbn [bind].
  destruct (proj1 (wf_in1 _ _ _ (w_st _ _ _ _ W) i) Hi) as (_ & Ai). destruct (flip_active _ Ai) as (Af & Fo).
  assert (GV : st_getStatus b i = Ok (flip (zs (st_status (q_bounds s0)) i))).
  { rewrite (getStatus_ok b l0 l1); [|exact WB|destruct Me as (-> & _); rewrite (w_nV _ _ _ _ W); exact Ri].
    rewrite SE, (zs_upd' n s0 l0 l1) by auto. now rewrite Z.eqb_refl. }
  rewrite GV. cbn [bind].
  assert (F : forall lb ub, zlen lb = n -> zlen ub = n ->
     let s' := set_q_ub ub (set_q_lb lb (set_q_bounds b (set_q_R (q_R s0) s))) in
     flipped n s0 s' l0 l1 i /\ q_htype s' = q_htype s /\ (plainH s' = true -> q_flip s' = f)).
  { intros lb ub Ll Lu s'. subst s'. split; [|split; [reflexivity|intros _; exact Ef]]. subst s.
    split. { pose proof W as []. constructor; cbn; auto.
      - destruct Me as (-> & _). assumption.
      - intros k Hk. rewrite SE, (zs_upd' n s0 l0 l1) by auto. destruct (k =? i); [unfold good_status; auto|auto].
      - eauto. }
    split; [frm|]. split; [frm|]. split; [exact NP|]. split; [exact Me|exact SE]. }
  destruct W as [Hn HnV Hst Hgd Hgg Hlb Hub HRR Hx Hy Htmp Hfl HH].
  assert (Ll : zlen (q_lb s) = n) by (subst s; exact Hlb). assert (Lu : zlen (q_ub s) = n) by (subst s; exact Hub).
  destruct Fo as [-> | ->]; cbn [q_lb q_ub set_q_bounds set_q_R].
  - sstep. sstep; [lia|]. sstep. sstep; [lia|]. cbn [wp]. split; [reflexivity|]. exact (F l' (q_ub s) ltac:(lia) Lu).
  - sstep. sstep; [lia|]. sstep. sstep; [lia|]. cbn [wp]. split; [reflexivity|]. exact (F (q_lb s) l' Ll ltac:(lia)).
Qed.

Lemma removeBound_safe n (s : qpb) l0 l1 i upd : qwf n s l0 l1 -> hk s -> In i l1 -> noUpdate s = false ->
  wp (removeBound junk i upd s) (fun '(r, s') => r <> RET_MAX_NWSR_REACHED /\
    (q_status s = QPS_PREPARINGAUXILIARYQP -> r = SUCCESSFUL_RETURN /\ removed n s s' l0 l1 i) /\
    (r = SUCCESSFUL_RETURN -> removed n s s' l0 l1 i \/ flipped n s s' l0 l1 i) /\
    exists l0' l1', qwf n s' l0' l1' /\ sfr s s' /\ sst s s').
Proof.
  intros W K Hi NU. unfold removeBound. rewrite NU. cbv zeta. rewrite (w_nv _ _ _ _ W), (w_nfr _ _ _ _ W).
  set (fb := o_enableFlippingBounds (q_opts s)).
  sstep. eapply wp_mono with (P := fun s1 => exists f, s1 = set_q_flip f s /\ (exists g, holds n 0 f g) /\
    (fb = true -> exists g, holds n 0 f g /\ sn_b g = Some (q_bounds s) /\ sn_R g = Some (q_R s))).
  { destruct fb.
    - sstep. eapply wp_mono; [apply (snapshot n s l0 l1 W)|]. intros f (g & Hg & A & B). cbn. exists f. split; [reflexivity|]. split; [eauto|]. intros _. eauto.
    - cbn. exists (q_flip s). split; [destruct s; reflexivity|]. split; [apply W|discriminate]. }
  intros s1 (f & -> & (g0 & Hg0) & Hf).
  destruct (deactivate_ok (q_bounds s) l0 l1 i (w_st _ _ _ _ W) Hi) as (b & E & WB & Me & SE). cbn [q_bounds set_q_flip]. rewrite E. cbn [bind].
  change (SUCCESSFUL_RETURN =r? SUCCESSFUL_RETURN) with true. cbn [negb].
  pose proof (w_in1 _ _ _ _ W i Hi) as Ri.
  set (Post := fun '(r, s') => r <> RET_MAX_NWSR_REACHED /\ _).
  assert (Rem : forall R h, zlen R = n * n -> hframe (q_htype s) h -> qwf n (set_q_htype h (set_q_R R (set_q_bounds b (set_q_flip f s)))) (l0 ++ [i]) (spec_remove l1 i)).
  { intros R h LR _. apply (wf_same n (set_q_bounds b (set_q_R R (set_q_flip f s)))); [|samearr].
    eapply (wf_upd n (set_q_R R (set_q_flip f s)) l0 l1); [apply wf_set_R; [eapply wf_set_flip; [exact W|exact Hg0]|exact LR]|exact Ri| |exact WB|exact Me|exact SE].
    unfold good_status; auto. }
  assert (Drop : forall R, zlen R = n * n -> removed n s (set_q_R R (set_q_bounds b (set_q_flip f s))) l0 l1 i).
  { intros R LR. split; [exact (Rem R (q_htype s) LR (hframe_refl _))|]. exists b, R, f. split; [reflexivity|auto]. }
  assert (DropP : forall R, zlen R = n * n -> wp (Ok (SUCCESSFUL_RETURN, set_q_R R (set_q_bounds b (set_q_flip f s)))) Post).
  { intros R LR. cbn. split; [discriminate|]. split; [intros _; split; [reflexivity|now apply Drop]|]. split; [intros _; left; now apply Drop|].
    exists (l0 ++ [i]), (spec_remove l1 i). split; [exact (Rem R (q_htype s) LR (hframe_refl _))|]. split; frm. }
  assert (FailP : forall r R h, r <> SUCCESSFUL_RETURN -> r <> RET_MAX_NWSR_REACHED -> q_status s <> QPS_PREPARINGAUXILIARYQP ->
     zlen R = n * n -> hframe (q_htype s) h -> wp (Ok (r, set_q_htype h (set_q_R R (set_q_bounds b (set_q_flip f s))))) Post).
  { intros r R h N1 N2 NP LR Fh. cbn. split; [exact N2|]. split; [intros; contradiction|]. split; [intros; contradiction|].
    exists (l0 ++ [i]), (spec_remove l1 i). split; [exact (Rem R h LR Fh)|]. split; frm. }
  pose proof (w_R _ _ _ _ W) as LR0.
  assert (S0 : set_q_bounds b (set_q_flip f s) = set_q_R (q_R s) (set_q_bounds b (set_q_flip f s))) by (destruct s; reflexivity).
  cbn [q_status set_q_bounds set_q_flip]. destruct (is_qps (q_status s) QPS_PREPARINGAUXILIARYQP) eqn:NP.
  { rewrite S0. apply DropP, LR0. }
  assert (NP' : q_status s <> QPS_PREPARINGAUXILIARYQP) by (intros X; rewrite X in NP; discriminate NP).
  assert (FlipP : forall s2, flipped n s s2 l0 l1 i -> wp (Ok (SUCCESSFUL_RETURN, s2)) Post).
  { intros s2 FL. cbn. split; [discriminate|]. split; [intros; contradiction|]. split; [intros _; now right|]. exists l0, l1.
    destruct FL as (A & B & C & _). auto. }
  assert (TailP : forall R, zlen R = n * n ->
     wp (if is_hst (q_htype (set_q_R R (set_q_bounds b (set_q_flip f s)))) HST_ZERO && fb
         then flipBound i (set_q_R R (set_q_bounds b (set_q_flip f s)))
         else Ok (SUCCESSFUL_RETURN, set_q_R R (set_q_bounds b (set_q_flip f s)))) Post).
  { intros R LR. destruct (is_hst _ _ && fb) eqn:Z; [|now apply DropP]. apply andb_true_iff in Z as [_ Fb].
    destruct (Hf Fb) as (g & Hg & Gb & GR).
    eapply wp_mono; [eapply (flipBound_safe n s _ l0 l1 i f g); auto; exists b, R, (q_htype s); split; [reflexivity|auto]|].
    intros [r s2] (-> & FL & _). now apply FlipP. }
  change (plainH (set_q_bounds b (set_q_flip f s))) with (plainH s).
  destruct (upd && plainH s) eqn:PU; [|rewrite S0; apply TailP, LR0].
  apply andb_true_iff in PU as [_ PH].
  change (q_theH (set_q_bounds b (set_q_flip f s))) with (q_theH s).
  sstep. apply (w_theH n s l0 l1 W _ K PH). intros M HM.
  pose proof (w_len0_lt _ _ _ _ W i Hi) as Ln. pose proof (zlen_nonneg l0) as L0.
  assert (LA : zlen (l0 ++ [i]) = zlen l0 + 1) by (rewrite zlen_app; reflexivity).
  sstep. eapply wp_mono; [apply (m_getRow_safe n M HM i _ _ _ (l0 ++ [i])); [exact (wf_ina _ _ _ WB)| |exact Ri|rewrite LA, J by lia; lia]|].
  { intros v Hv. destruct Me as (En & _). rewrite <- (w_nV _ _ _ _ W), <- En. exact (wf_range0 _ _ _ _ WB Hv). }
  intros rhs Lrhs. rewrite J in Lrhs by lia. sstep. eapply wp_mono; [apply (m_diag_safe n M HM i Ri)|]. intros r0 _.
  assert (EnV : nV (set_q_bounds b (set_q_flip f s)) = n) by (unfold nV; cbn; destruct Me as (-> & _); apply W).
  assert (EnF : nFR (set_q_bounds b (set_q_flip f s)) = zlen l0 + 1) by (unfold nFR, st_nIna; cbn; rewrite (rep_len _ _ (wf_ina _ _ _ WB)); exact LA).
  sstep. unfold qb_backsolveR. rewrite EnV, EnF. replace (zlen l0 + 1 - 1) with (zlen l0) by lia.
  eapply wp_mono; [apply backsolveR_safe; [lia|cbn; lia|rewrite J by lia; lia|cbn; lia]|]. intros [rv r] Lr. rewrite J in Lr by lia.
  destruct (negb _). { rewrite S0. apply (FailP RET_REMOVEBOUND_FAILED (q_R s) (q_htype s)); auto; discriminate. }
  sstep. eapply wp_mono with (P := fun _ => True).
  { apply wp_for_inv with (I := fun _ => True); auto. intros j v Hj _. sstep. sstep; [lia|exact I]. }
  intros r1 _. sstep. eapply wp_mono with (P := fun R => zlen R = n * n).
  { apply wp_for_inv with (I := fun R => zlen R = n * n); auto. intros j R Hj LR. sstep. sstep; [lia|].
    apply wp_wrv; [rewrite LR; apply cm_idx; lia|]. intros; lia. }
  intros R LR. cbn beta in LR. cbn [q_opts set_q_R set_q_bounds set_q_flip]. fold fb.
  assert (Piv : wp (R <- wr R (zlen l0 + n * zlen l0) (nsqrt r1) ;;
      (if is_hst (q_htype (set_q_R R (set_q_R R (set_q_bounds b (set_q_flip f s))))) HST_ZERO && fb
         then flipBound i (set_q_R R (set_q_R R (set_q_bounds b (set_q_flip f s))))
         else Ok (SUCCESSFUL_RETURN, set_q_R R (set_q_R R (set_q_bounds b (set_q_flip f s)))))) Post).
  { sstep. apply wp_wrv; [rewrite LR; apply cm_idx; lia|]. intros R' LR'. apply (TailP R'). lia. }
  destruct fb eqn:Fb.
  - destruct (r1 >' _); [exact Piv|].
    destruct (Hf eq_refl) as (g & Hg & Gb & GR). sstep.
    eapply wp_mono; [eapply (flipBound_safe n s _ l0 l1 i f g); auto; exists b, R, HST_SEMIDEF; split; [reflexivity|right; auto]|].
    intros [r' s2] (-> & FL & HT & _). cbn [q_htype set_q_htype] in HT. change (negb _) with false. cbn iota.
    rewrite HT. cbn [is_hst]. apply FlipP, FL.
  - destruct (r1 >' _); [exact Piv|]. apply (FailP RET_HESSIAN_NOT_SPD R HST_SEMIDEF); auto; try discriminate. right; auto.
Qed.
Lemma removed_frames n (s s' : qpb) l0 l1 i : removed n s s' l0 l1 i -> sfr s s' /\ sst s s'.
Proof. intros (_ & b & R & f & -> & _). split; frm. Qed.
End Junk.
End QPBSafe2.
