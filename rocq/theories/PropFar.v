(** Far bounds of QProblemB (C43). *)
From Verif Require Import Base Types Num Options PropOptions Indexlist IndexlistProofs Loops RSum LinSpec SafeLib SubjectTo SubjectToProofs SubjectToProofs2
  Flipper PropFlipper Matrices MatLib MatSafe LinAlg PropLinAlg QProblemB QPBSafe QPBSafe2 QPBSafe3 QPBSafe4 QPBSafe5 QPBSafe6 QPBEx QPBX1 QPBX2 QPBX3 QPBX4 QPBX5 QPBX6 QPBX7
  PropRatio PropChol PropAux PropStep QPBX8 QPBX9 QPBX10 QPBX11 PropHomotopy PropQPB PropQPBx.
Local Open Scope Z_scope.

(** ** The verdict, for any arithmetic *)
Section Verdict.
Context {N : Num}.
Notation arr := (list N).
Notation qpb := (qpb N).
Variable junk : Z -> arr.
Hypothesis J : junk_ok junk.
Variable cpu : Z -> bool.

(** the far bound after m enlargements *)
Fixpoint grown (grow : N) (m : nat) (far : N) : N := match m with O => far | S m => grown grow m (far *' grow) end.
Definition verdict (r : returnValue) (s : qpb) : Prop :=
  (r = RET_HOTSTART_STOPPED_UNBOUNDEDNESS /\ q_unbounded s = true) \/ (r = RET_HOTSTART_STOPPED_INFEASIBILITY /\ q_infeasible s = true).

Lemma farLoop_verdict n fuel : forall (s : qpb) (gn : arr) lbn ubn nWSR p far lf uf r k s', owf n s -> accepted (q_status s) -> hk s ->
  n <= zlen gn -> olen n lbn -> olen n ubn -> zlen lf = n -> zlen uf = n ->
  farLoop junk cpu fuel gn lbn ubn nWSR p far lf uf s = Ok (r, k, s') -> verdict r s' ->
  exists m, (m < fuel)%nat /\ grown (o_growFarBounds (q_opts s)) (S m) far >=' nINFTY = true.
Proof.
  induction fuel as [|fuel IH]; intros s gn lbn ubn nWSR p far lf uf r k s' W A HK Hg Hl Hu L1 L2 E V; [discriminate E|]. cbn [farLoop] in E.
  destruct (wp_inv _ _ (solveRegularisedQP_safe junk J cpu n s gn (Some lf) (Some uf) nWSR p W (fun _ => HK) Hg ltac:(cbn; lia) ltac:(cbn; lia))) as (((r1 & k1) & s1) & E1 & W1 & F1 & H1).
  rewrite E1 in E. cbn [bind] in E. cbv zeta in E. destruct H1 as [(NA & _)|(R1 & U1)]; [contradiction|]. pose proof R1 as (_ & I1 & _).
  assert (EG : o_growFarBounds (q_opts s1) = o_growFarBounds (q_opts s)) by (destruct (f_o _ _ F1) as [e ->]; reflexivity). rewrite EG in E. rewrite I1 in E.
  destruct (is_qps (q_status s1) QPS_SOLVED) eqn:Q.
  2:{ injection E as <- <- <-. destruct V as [(_ & V)|(_ & V)]; congruence. }
  apply bind_ok in E as (c & _ & E). destruct (c =? 0).
  { injection E as <- <- <-. destruct V as [(_ & V)|(_ & V)]; congruence. }
  destruct ((far *' o_growFarBounds (q_opts s)) >=' nINFTY) eqn:GE.
  { exists O. split; [lia|exact GE]. }
  set (s2 := set_q_status QPS_HOMOTOPYQPSOLVED s1) in E.
  apply bind_ok in E as ([lf' uf'] & E2 & E).
  assert (W2 : owf n s2) by (eapply owf_same; [|exact W1]; unfold s2; samearr).
  assert (NV2 : nV s2 = n) by (destruct W2 as (m0 & m1 & W2); exact (w_nv _ _ _ _ W2)).
  pose proof (updateFarBounds_safe (far *' o_growFarBounds (q_opts s)) (nV s2) lbn ubn s2 lf uf n NV2 Hl Hu L1 L2) as X. rewrite E2 in X. destruct X as (X1 & X2).
  eapply IH in E; eauto.
  - destruct E as (m & Hm & G). exists (S m). split; [lia|]. change (o_growFarBounds (q_opts (set_q_rampOffset (q_rampOffset s2 + 1) s2))) with (o_growFarBounds (q_opts s1)) in G. rewrite EG in G. exact G.
  - eapply owf_same; [|exact W2]; samearr.
  - right; left; reflexivity.
  - exact (hk_frame _ _ F1 HK).
Qed.

Theorem C43_verdict n fuel (s : qpb) (gn : arr) lbn ubn nWSR r k s' : qok n s -> accepted (q_status s) ->
  n <= zlen gn -> olen n lbn -> olen n ubn -> hotstart junk cpu fuel gn lbn ubn nWSR None s = Ok (r, k, s') -> verdict r s' ->
  o_enableFarBounds (q_opts s) = true /\
  exists far m, extendFar lbn ubn n (o_initialFarBounds (q_opts s)) = Ok far /\ grown (o_growFarBounds (q_opts s)) (S m) far >=' nINFTY = true.
Proof.
  intros (l0 & l1 & W & _ & HK) A Hg Hl Hu E V. specialize (HK (accepted_init _ A)). unfold hotstart in E. rewrite (w_nv _ _ _ _ W) in E. pose proof (w_n _ _ _ _ W) as Hn.
  destruct (Z.eqb_spec n 0); [lia|]. cbn [bind] in E. change (negb (SUCCESSFUL_RETURN =r? SUCCESSFUL_RETURN)) with false in E. cbn iota in E.
  apply bind_ok in E as (rb & _ & E). destruct (negb _) in E. { injection E as <- <- <-. destruct V as [(X & _)|(X & _)]; discriminate X. }
  cbv zeta in E. set (s2 := set_q_count _ s) in E. assert (W2 : qwf n s2 l0 l1) by (apply (wf_same n s); [exact W|samearr]).
  apply bind_ok in E as ([rc s3] & E3 & E).
  assert (S3 : qwf n s3 l0 l1 /\ hk s3 /\ sst s2 s3 /\ oframe (q_opts s2) (q_opts s3) /\ ~ verdict rc s3).
  { destruct (q_haveChol s2).
    - injection E3 as <- <-. split; [exact W2|]. split; [exact HK|]. split; [apply sst_refl|]. split; [apply oframe_refl|]. intros [(X & _)|(X & _)]; discriminate X.
    - pose proof (setupInitialCholesky_safe n s2 l0 l1 W2 HK) as X. rewrite E3 in X. destruct X as (X1 & X2 & X3 & X4 & X5). split; [exact X1|]. split; [exact X2|]. split; [exact X4|]. split; [apply X3|].
      intros Y. assert (Hc : rc = SUCCESSFUL_RETURN \/ rc = RET_INIT_FAILED_REGULARISATION \/ rc = RET_INIT_FAILED_CHOLESKY).
      { revert E3. unfold setupInitialCholesky. intros H. apply bind_ok in H as (fv & _ & H). apply bind_ok in H as ([r0 s1] & _ & H).
        destruct (negb _) in H; [injection H as <-; auto|]. apply bind_ok in H as ([rc1 s4] & _ & H). cbv zeta in H. destruct (rc1 =r? RET_HESSIAN_NOT_SPD).
        - apply bind_ok in H as ([r3 s5] & _ & H). destruct (negb _) in H; [injection H as <-; auto|]. apply bind_ok in H as ([rc4 s6] & _ & H). destruct (negb _) in H; injection H as <-; auto.
        - destruct (negb _) in H; injection H as <-; auto. }
      destruct Y as [(X & _)|(X & _)]; destruct Hc as [Z|[Z|Z]]; rewrite Z in X; discriminate X. }
  destruct S3 as (W3 & K3 & ST3 & O3 & NV3).
  assert (A3 : accepted (q_status s3)) by (destruct ST3; unfold accepted in *; cbn in *; rewrite f_stat; exact A).
  assert (EO : forall B (f : options N -> B), (forall e, f (set_o_epsRegularisation e (q_opts s)) = f (q_opts s)) -> f (q_opts s3) = f (q_opts s)).
  { intros B f Hf. destruct O3 as [e O3]. rewrite O3. apply Hf. }
  destruct (negb _) in E. { injection E as <- <- <-. contradiction. }
  rewrite (EO _ (@o_enableFarBounds N) (fun _ => eq_refl)) in E. rewrite (EO _ (@o_initialFarBounds N) (fun _ => eq_refl)) in E. rewrite (w_nv _ _ _ _ W3) in E.
  destruct (o_enableFarBounds (q_opts s)); cbn [negb] in E.
  - split; [reflexivity|]. apply bind_ok in E as (far & EF & E). apply bind_ok in E as ([lf uf] & EU & E).
    pose proof (updateFarBounds_safe far n lbn ubn s3 (junk n) (junk n) n (w_nv _ _ _ _ W3) Hl Hu ltac:(apply J; lia) ltac:(apply J; lia)) as X. rewrite EU in X. destruct X as (X1 & X2).
    apply (farLoop_verdict n) in E as (m & _ & G); auto; [|exists l0, l1; exact W3]. exists far, m. split; [exact EF|]. rewrite (EO _ (@o_growFarBounds N) (fun _ => eq_refl)) in G. exact G.
  - exfalso. pose proof (solveRegularisedQP_safe junk J cpu n s3 gn lbn ubn nWSR 0 (ex_intro _ l0 (ex_intro _ l1 W3)) (fun _ => K3) Hg Hl Hu) as X. rewrite E in X.
    destruct X as (_ & _ & [(X & _)|(X & Y)]); [contradiction|]. destruct X as (_ & X & _). destruct V as [(_ & V)|(_ & V)]; congruence.
Qed.
End Verdict.

(** ** Values, over the reals *)
Local Open Scope R_scope.
Section Values.
Variables eps zero infty : R.
Notation N := (RNumT eps zero infty).
Notation arr := (list R).

(** a bound in use against the requested one, with a far bound of at least F *)
Definition low_kept (F : R) (l : option R) (b : R) : Prop :=
  match l with Some w => (- F <= w -> b = w) /\ (b = w \/ (w < b /\ b <= - F)) | None => b <= - F end.
Definition up_kept (F : R) (u : option R) (b : R) : Prop :=
  match u with Some w => (w <= F -> b = w) /\ (b = w \/ (b < w /\ F <= b)) | None => F <= b end.

Theorem C43_far_bounds n (s : qpb N) l0 l1 far lbn ubn (lf uf : arr) : qwf n s l0 l1 -> ramps eps zero infty n s -> 0 <= far ->
  olen (N := N) n lbn -> olen (N := N) n ubn -> zlen lf = n -> zlen uf = n ->
  exists lf' uf', updateFarBounds (N := N) far n lbn ubn s lf uf = Ok (lf', uf') /\ zlen lf' = n /\ zlen uf' = n /\
    forall i, (0 <= i < n)%Z -> low_kept far (bo lbn i) (zn 0 lf' i) /\ up_kept far (bo ubn i) (zn 0 uf' i).
Proof.
  intros W RA F0 Hl Hu L1 L2. destruct (wp_inv _ _ (updateFar_exact eps zero infty n s l0 l1 far lbn ubn lf uf W Hl Hu L1 L2)) as ([lf' uf'] & E & A & B & V).
  exists lf', uf'. split; [exact E|]. split; [exact A|]. split; [exact B|]. intros i Hi. destruct (V i Hi) as (VL & VU). pose proof (farv_ge eps zero infty s n far i RA F0 Hi) as G. rcar.
  split.
  - rewrite VL. unfold low_kept, bo. destruct lbn as [a|]; [|lra]. unfold Rmax. destruct (Rle_dec _ _); lra.
  - rewrite VU. unfold up_kept, bo. destruct ubn as [a|]; [|lra]. unfold Rmin. destruct (Rle_dec _ _); lra.
Qed.

(** the first far bound of a hotstart is beyond every finite requested bound, so
    all of these are kept *)
Theorem C43_first n lbn ubn (F0 : R) : (0 <= n)%Z -> olen (N := N) n lbn -> olen (N := N) n ubn ->
  exists far, extendFar (N := N) lbn ubn n F0 = Ok far /\ F0 <= far /\
    forall i, (0 <= i < n)%Z -> (forall l, bo lbn i = Some l -> - infty < l -> - far <= l) /\ (forall u, bo ubn i = Some u -> u < infty -> u <= far).
Proof.
  intros Hn Hl Hu. destruct (wp_inv _ _ (extendFar_exact eps zero infty n lbn ubn F0 Hn Hl Hu)) as (far & E & A & _ & B). eauto.
Qed.

(** ** Enlarging ends *)
Lemma grows_R g fuel : forall far, infty <= far * g ^ fuel -> 0 <= far -> 1 <= g -> (0 < fuel)%nat -> grows (N := N) g fuel far.
Proof.
  induction fuel as [|f IH]; intros far G F Hg Hf; [lia|]. cbn [grows]. rnum. destruct (Rle_dec infty (far * g)) as [X|X].
  - left. destruct (Rleb_spec infty (far * g)); [reflexivity|lra].
  - right. cbn [pow] in G. destruct f as [|f]; [cbn in G; lra|]. apply IH; [lra| |exact Hg|lia]. apply Rmult_le_pos; lra.
Qed.
Lemma grows_enough g F0 : 1 < g -> 0 < F0 -> exists m, forall fuel far, (m <= fuel)%nat -> F0 <= far -> grows (N := N) g fuel far.
Proof.
  intros Hg HF. destruct (Pow_x_infinity g ltac:(rewrite Rabs_right; lra) (Rmax 0 (infty / F0))) as (m & Hm). exists (S m). intros fuel far Hf Hfar.
  apply grows_R; [|lra|lra|lia]. specialize (Hm fuel ltac:(lia)). rewrite Rabs_right in Hm by (apply Rle_ge, pow_le; lra).
  pose proof (Rmax_r 0 (infty / F0)). pose proof (Rmax_l 0 (infty / F0)).
  apply Rle_trans with (F0 * g ^ fuel); [|apply Rmult_le_compat_r; [apply pow_le; lra|exact Hfar]].
  apply Rle_trans with (F0 * (infty / F0)); [right; field; lra|apply Rmult_le_compat_l; lra].
Qed.
(** an object whose options are regular: every hotstart with enough fuel returns *)
Theorem C43_terminates (junk : Z -> arr) cpu n (s : qpb N) : junk_ok (N := N) junk -> qok n s ->
  (o_enableFarBounds (q_opts s) = true -> 0 < o_initialFarBounds (q_opts s) /\ 1 < o_growFarBounds (q_opts s)) ->
  exists m, forall fuel gn lbn ubn nWSR guess, (m <= fuel)%nat -> callable guess s -> (n <= zlen gn)%Z -> olen (N := N) n lbn -> olen (N := N) n ubn -> (forall gb, guess = Some gb -> gwf gb) ->
    exists r k s', hotstart (N := N) junk cpu fuel gn lbn ubn nWSR guess s = Ok (r, k, s').
Proof.
  intros J OK RG.
  assert (FE : exists m, forall fuel, (m <= fuel)%nat -> fuel_ok (N := N) n (q_opts s) fuel).
  { destruct (o_enableFarBounds (q_opts s)) eqn:E; [|exists O; intros fuel _ X; congruence]. destruct (RG eq_refl) as (H0 & H1).
    destruct (grows_enough (o_growFarBounds (q_opts s)) (o_initialFarBounds (q_opts s)) H1 H0) as (m & G). exists m. intros fuel Hf _ lbn ubn far EX. apply G; [exact Hf|].
    revert EX. apply (extendFar_inv (N := N) (fun f : R => o_initialFarBounds (q_opts s) <= f)); [lra| |].
    - intros f u Hf' X. revert X. rnum. destruct (Rltb_spec f u); [|discriminate]. intros _. lra.
    - intros f u Hf' X. revert X. rnum. destruct (Rltb_spec u (- f)); [|discriminate]. intros _. lra. }
  destruct FE as (m & FE). exists m. intros fuel gn lbn ubn nWSR guess Hf CA Hg Hl Hu HG.
  destruct (wp_inv _ _ (hotstart_safe (N := N) junk J cpu n s fuel gn lbn ubn nWSR guess OK CA (FE fuel Hf) Hg Hl Hu HG)) as (((r & k) & s') & E & _). eauto.
Qed.
(** options that went through setOptions are regular in this sense *)
Theorem C43_guard (o : options N) s : 0 < eps -> let o' := q_opts (qb_setOptions o s) in 0 < o_initialFarBounds o' /\ 1 < o_growFarBounds o'.
Proof.
  intros He. cbv zeta. unfold qb_setOptions, ensureConsistency. rewrite (surjective_pairing (ensureConsistency_run o)).
  assert (A : 0 < o_initialFarBounds (snd (ensureConsistency_run o))).
  { assert (P : 0 < o_boundRelaxation (snd (ensureConsistency_run o))).
    { rewrite f_brel. rnum. change (Rlit 0 0) with 0. destruct (Rleb_spec (o_boundRelaxation o) 0); lra. }
    rewrite f_far. rnum. destruct (Rleb_spec (o_initialFarBounds o) (o_boundRelaxation (snd (ensureConsistency_run o)))); lra. }
  assert (B : 1 < o_growFarBounds (snd (ensureConsistency_run o))).
  { rewrite f_grow. rnum. destruct (Rltb_spec (o_growFarBounds o) (Rlit 11 (-1))) as [X|X]; change (Rlit 11 (-1)) with (11 / 10) in *; lra. }
  split; destruct (fst _); cbn; assumption.
Qed.
End Values.

(** ** One variable in binary64: the far bound is not a number *)
Definition ce_far : qpb FNum := qb_new (N := FNum) (fun k => repeat n0 (Z.to_nat k)) 1 HST_UNKNOWN optDefault.
Definition ce_far_run := updateFarBounds (N := FNum) (o_initialFarBounds optDefault) 1 (Some [n0]) None ce_far [n0] [n0].
Theorem C43_refuted : o_enableRamping (q_opts ce_far) = true /\ ce_far_run = Ok ([n0], [SpecFloat.S754_nan]).
Proof. vm_compute. auto. Qed.

(** ** Example *)
Example C43_ex : qwf 2 ex_s [0%Z] [1%Z] /\ ramps (1/1000) (1/1000000) 1000 2 ex_s /\ accepted (q_status (set_q_status QPS_SOLVED ex_s)).
Proof.
  split; [exact ex_s_wf|]. split; [|right; right; reflexivity]. intros _. split; [lia|]. split; [cbn; lia|]. split; lits; lra.
Qed.

Print Assumptions C43_verdict.
Print Assumptions C43_far_bounds.
Print Assumptions C43_first.
Print Assumptions C43_terminates.
Print Assumptions C43_guard.
Print Assumptions C43_refuted.
