(** The caller's matrix (C44) and re-initialisation (C45).

    setH with an array wraps the caller's memory without copying it
    (QProblemB.ipp:250-287), and setH with a matrix stores the pointer, so the
    matrix of the object is the memory of the caller.  Gradient, bounds, guesses
    and a Cholesky factor are copied (QProblemB.ipp:293-380, QProblemB.cpp:2315-2339,
    2830-2865). *)
From Coq Require Import QArith.
From Verif Require Import Base Types Num Options PropOptions Indexlist IndexlistProofs Loops SafeLib SubjectTo SubjectToProofs SubjectToProofs2
  Flipper PropFlipper Matrices MatLib MatSafe LinAlg QProblemB QPBSafe QPBSafe2 QPBSafe3 QPBSafe4 QPBSafe5 QPBSafe6 QPBEx QPBX1 QPBAgain PropAux PropQPB PropQPBx.
Local Open Scope Z_scope.

Section Data.
Context {N : Num}.
Notation arr := (list N).
Notation qpb := (qpb N).
Variable junk : Z -> arr.
Hypothesis J : junk_ok junk.
Variable cpu : Z -> bool.

(** the matrix passed to init *)
Definition passed (n : Z) (h : harg N) : option (symmat N) :=
  match h with HMat M => M | HArr (Some a) => Some (SDense (mkDense n n n a)) | HArr None => None end.

(** ** C44 *)
Definition hsafe (s : qpb) : Prop := o_enableRegularisation (q_opts s) = false \/ plain (q_htype s) = false.
(** the same matrix, and it stays safe *)
Definition sameH (s s' : qpb) : Prop := q_H s' = q_H s /\ hsafe s'.

Lemma reg_H s r s' : hsafe s -> regulariseHessian s = Ok (r, s') -> sameH s s'.
Proof.
  intros HS E. unfold regulariseHessian in E. destruct (o_enableRegularisation (q_opts s)) eqn:R; cbn [negb] in E; [|injection E as <- <-; split; auto].
  destruct HS as [X|P]; [congruence|]. unfold plain in P.
  destruct (is_hst (q_htype s) HST_IDENTITY) eqn:I1; [injection E as <- <-; split; [auto|right; unfold plain; rewrite I1; now destruct (is_hst _ _)]|].
  destruct (usingReg s); [injection E as <- <-; split; [auto|right; unfold plain; rewrite I1; exact P]|].
  destruct (is_hst (q_htype s) HST_ZERO) eqn:I2; [|discriminate P]. apply bind_ok in E as (v & _ & E). injection E as <- <-. split; [reflexivity|]. right. cbn. unfold plain. now rewrite I2.
Qed.
Lemma chol_H s r s' : hsafe s -> computeCholesky s = Ok (r, s') -> sameH s s'.
Proof.
  intros HS E. unfold computeCholesky in E. apply bind_ok in E as (R & _ & E).
  assert (S0 : forall R', sameH s (set_q_R R' s)) by (intros; split; [reflexivity|exact HS]).
  assert (PL : forall (E : (if nFR s <=? 0 then Ok (SUCCESSFUL_RETURN, set_q_R R s) else
      M <- q_theH s ;;
      R <- for_up 0 (nFR s) (fun j R => c <- rd (FR_idx s) j ;; at_off R (j * nV s) (m_getCol M c (st_ina (q_bounds s)) n1)) R ;;
      '(info, R) <- dpotrf (nFR s) R (nV s) ;;
      if 0 <? info then
        r0 <- rd R 0 ;;
        let o := q_opts s in
        let o := if r0 <' n0 then set_o_epsRegularisation (getMin (-' r0 +' o_epsRegularisation o) (nsqrt (nabs (o_epsRegularisation o)))) o else o in
        Ok (RET_HESSIAN_NOT_SPD, set_q_htype HST_SEMIDEF (set_q_opts o (set_q_R R s)))
      else
        R <- for_up 0 (nFR s - 1) (fun i R => wr R (i + 1 + nV s * i) n0) R ;;
        Ok (SUCCESSFUL_RETURN, set_q_R R s)) = Ok (r, s')), o_enableRegularisation (q_opts s) = false -> sameH s s').
  { clear E. intros E OF. destruct (nFR s <=? 0); [injection E as <- <-; auto|]. apply bind_ok in E as (M & _ & E). apply bind_ok in E as (R1 & _ & E). apply bind_ok in E as ([info R2] & _ & E).
    destruct (0 <? info).
    - apply bind_ok in E as (r0 & _ & E). cbv zeta in E. injection E as <- <-. split; [reflexivity|]. left. cbn. destruct (r0 <' n0); exact OF.
    - apply bind_ok in E as (R3 & _ & E). injection E as <- <-. auto. }
  destruct (q_htype s) eqn:HT; try (apply PL; [exact E|destruct HS as [X|X]; [exact X|rewrite HT in X; discriminate X]]).
  - destruct (usingReg s); [apply bind_ok in E as (R1 & _ & E)|]; injection E as <- <-; auto.
  - apply bind_ok in E as (R1 & _ & E); injection E as <- <-; auto.
Qed.
Lemma sameH_trans a b c : sameH a b -> sameH b c -> sameH a c.
Proof. intros (A & B) (C & D). split; [congruence|exact D]. Qed.
Lemma initChol_H s r s' : hsafe s -> setupInitialCholesky s = Ok (r, s') -> sameH s s'.
Proof.
  intros HS E. unfold setupInitialCholesky in E. apply bind_ok in E as (fv & _ & E). apply bind_ok in E as ([r1 s1] & E1 & E).
  assert (S1 : sameH s s1) by (destruct (_ && _) in E1; [eapply reg_H; eauto|injection E1 as <- <-; split; auto]).
  destruct (negb _) in E; [injection E as <- <-; exact S1|]. apply bind_ok in E as ([r2 s2] & E2 & E). cbv zeta in E.
  assert (S2 : sameH s s2) by (eapply sameH_trans; [exact S1|eapply chol_H; [apply S1|exact E2]]).
  destruct (r2 =r? RET_HESSIAN_NOT_SPD).
  - apply bind_ok in E as ([r3 s3] & E3 & E). assert (S3 : sameH s s3) by (eapply sameH_trans; [exact S2|eapply reg_H; [apply S2|exact E3]]).
    destruct (negb _) in E; [injection E as <- <-; exact S3|]. apply bind_ok in E as ([r4 s4] & E4 & E).
    assert (S4 : sameH s s4) by (eapply sameH_trans; [exact S3|eapply chol_H; [apply S3|exact E4]]).
    destruct (negb _) in E; injection E as <- <-; exact S4.
  - destruct (negb _) in E; injection E as <- <-; exact S2.
Qed.
Lemma frame_H s s' : sfr s s' -> hsafe s -> sameH s s'.
Proof.
  intros [] HS. split; [auto|]. destruct HS as [X|X].
  - left. destruct f_o as [e ->]. exact X.
  - right. destruct f_h as [-> | (P & _)]; [exact X|congruence].
Qed.

(** hotstart leaves the matrix as it is, whatever it returns *)
Theorem C44_hotstart n (s : qpb) fuel (gn : arr) lbn ubn nWSR guess r k s' : qok n s -> q_status s <> QPS_NOTINITIALISED -> fuel_ok n (q_opts s) fuel ->
  n <= zlen gn -> olen n lbn -> olen n ubn -> (forall gb, guess = Some gb -> gwf gb) -> hsafe s ->
  hotstart junk cpu fuel gn lbn ubn nWSR guess s = Ok (r, k, s') -> q_H s' = q_H s /\ hsafe s'.
Proof.
  intros (l0 & l1 & W & _ & HK) NI FU Hg Hl Hu HG HS E. specialize (HK NI). fold (sameH s s'). unfold hotstart in E. rewrite (w_nv _ _ _ _ W) in E. pose proof (w_n _ _ _ _ W) as Hn.
  destruct (Z.eqb_spec n 0); [lia|]. apply bind_ok in E as ([r1 s1] & E1 & E).
  assert (S1 : owf n s1 /\ hk s1 /\ sameH s s1 /\ oframe (q_opts s) (q_opts s1) ).
  { destruct guess as [gb|].
    - pose proof (setupAuxiliaryQP_safe junk J n s l0 l1 gb W HK (HG gb eq_refl)) as X. apply bind_ok in E1 as ([r2 s2] & E2 & E1). rewrite E2 in X. destruct X as (_ & F & _ & W2).
      pose proof (hk_frame _ _ F HK) as K2. pose proof (frame_H _ _ F HS) as S2.
      destruct (negb _) in E1; injection E1 as <- <-; (split; [first [exact W2 | eapply owf_same; [|exact W2]; samearr]|]; split; [exact K2|]; split; [exact S2|apply F]).
    - injection E1 as <- <-. split; [exists l0, l1; exact W|]. split; [exact HK|]. split; [split; auto|exists (o_epsRegularisation (q_opts s)); now destruct (q_opts s)]. }
  destruct S1 as ((m0 & m1 & W1) & K1 & S1 & O1).
  destruct (negb _) in E; [injection E as <- <- <-; exact S1|]. apply bind_ok in E as (rb & _ & E). destruct (negb _) in E; [injection E as <- <- <-; exact S1|].
  cbv zeta in E. set (s2 := set_q_count _ s1) in E. apply bind_ok in E as ([rc s3] & E3 & E).
  assert (W2 : qwf n s2 m0 m1) by (apply (wf_same n s1); [exact W1|samearr]).
  assert (S3 : qwf n s3 m0 m1 /\ hk s3 /\ sameH s s3 /\ oframe (q_opts s) (q_opts s3)).
  { destruct (q_haveChol s2).
    - injection E3 as <- <-. split; [exact W2|]. split; [exact K1|]. split; [exact S1|exact O1].
    - pose proof (setupInitialCholesky_safe n s2 m0 m1 W2 K1) as X. rewrite E3 in X. destruct X as (X1 & X2 & X3 & _). split; [exact X1|]. split; [exact X2|]. split; [|eapply oframe_trans; [exact O1|apply X3]].
      eapply sameH_trans; [exact S1|]. change (sameH s2 s3). eapply initChol_H; [apply S1|exact E3]. }
  destruct S3 as (W3 & K3 & S3 & O3).
  destruct (negb _) in E; [injection E as <- <- <-; exact S3|]. rewrite (w_nv _ _ _ _ W3) in E.
  assert (OW : owf n s3) by (exists m0, m1; exact W3).
  destruct (o_enableFarBounds (q_opts s3)) eqn:EF; cbn [negb] in E.
  - apply bind_ok in E as (far & EX & E). apply bind_ok in E as ([lf uf] & EU & E).
    pose proof (updateFarBounds_safe far n lbn ubn s3 (junk n) (junk n) n (w_nv _ _ _ _ W3) Hl Hu ltac:(apply J; lia) ltac:(apply J; lia)) as X. rewrite EU in X. destruct X as (X1 & X2).
    pose proof (farLoop_safe junk J cpu n fuel s3 gn lbn ubn nWSR 0 far lf uf OW (fun _ => K3) Hg Hl Hu X1 X2 (fuel_frame _ _ _ _ O3 FU EF lbn ubn far EX)) as X. rewrite E in X.
    destruct X as (_ & F & _). eapply sameH_trans; [exact S3|apply frame_H; [exact F|apply S3]].
  - pose proof (solveRegularisedQP_safe junk J cpu n s3 gn lbn ubn nWSR 0 OW (fun _ => K3) Hg Hl Hu) as X. rewrite E in X. destruct X as (_ & F & _).
    eapply sameH_trans; [exact S3|apply frame_H; [exact F|apply S3]].
Qed.

Lemma ensure_H s : q_htype s = HST_ZERO -> sameH s (ensure_regularisation s).
Proof. intros E. unfold ensure_regularisation. destruct (o_enableRegularisation (q_opts s)); (split; [reflexivity|right; cbn; now rewrite E]). Qed.
Lemma htype_H s r s' : o_enableRegularisation (q_opts s) = false -> determineHessianType s = Ok (r, s') -> sameH s s'.
Proof.
  intros OF E. unfold determineHessianType in E. assert (S0 : forall h, sameH s (set_q_htype h s)) by (intros; split; [reflexivity|now left]).
  assert (SZ : sameH s (ensure_regularisation (set_q_htype HST_ZERO s))) by (apply (ensure_H (set_q_htype HST_ZERO s)); reflexivity).
  assert (REST : forall (E : match q_H s with
    | None => Ok (SUCCESSFUL_RETURN, ensure_regularisation (set_q_htype HST_ZERO s))
    | Some M =>
        let s := set_q_htype HST_POSDEF s in
        d <- m_isDiag M ;;
        if negb d then Ok (SUCCESSFUL_RETURN, s) else
        c <- forb_up 0 (nV s) (fun i '(isId, isZ) =>
               curDiag <- m_diag M i ;;
               if curDiag >=' nINFTY then Ok (Brk (RET_DIAGONAL_NOT_INITIALISED, s)) else
               if curDiag <' -' nZERO then
                 let s := set_q_htype HST_INDEF s in
                 Ok (Brk (if o_enableFlippingBounds (q_opts s) then SUCCESSFUL_RETURN else RET_HESSIAN_INDEFINITE, s))
               else
                 Ok (Next (if nabs (curDiag -' n1) >' nEPS then false else isId,
                           if nabs curDiag >' nEPS then false else isZ))) (true, true) ;;
        match c with
        | Brk e => Ok e
        | Next (isId, isZ) =>
            let s := if isId : bool then set_q_htype HST_IDENTITY s else s in
            let s := if isZ : bool then ensure_regularisation (set_q_htype HST_ZERO s) else s in
            Ok (SUCCESSFUL_RETURN, s)
        end
    end = Ok (r, s')), sameH s s').
  { clear E. destruct (q_H s) as [M|] eqn:HM; intros E; [|injection E as <- <-; exact SZ]. cbv zeta in E. apply bind_ok in E as (d & _ & E). destruct (negb d) in E; [injection E as <- <-; auto|].
    apply bind_ok in E as (c & Ec & E). destruct c as [[isId isZ]|[r2 s2]].
    - injection E as <- <-. destruct isZ.
      + destruct isId; [exact (ensure_H (set_q_htype HST_ZERO (set_q_htype HST_IDENTITY (set_q_htype HST_POSDEF s))) eq_refl)|exact (ensure_H (set_q_htype HST_ZERO (set_q_htype HST_POSDEF s)) eq_refl)].
      + destruct isId; auto. split; [reflexivity|now left].
    - injection E as <- <-. revert Ec. unfold forb_up. generalize (Z.to_nat (nV (set_q_htype HST_POSDEF s) - 0)). intros m. generalize 0 as lo. generalize (true, true) as st. induction m as [|m IH]; intros st lo Ec; [discriminate Ec|].
      cbn in Ec. destruct st as [a b]. apply bind_ok in Ec as (c & E1 & E2). apply bind_ok in E1 as (cd & _ & E1). destruct (cd >=' nINFTY); [injection E1 as <-; injection E2 as <- <-; auto|].
      destruct (cd <' -' nZERO); [injection E1 as <-; injection E2 as <- <-; split; [reflexivity|now left]|]. injection E1 as <-. exact (IH _ _ E2). }
  destruct (q_htype s) eqn:HT; try (destruct (q_H s) eqn:HM; [injection E as <- <-; split; [reflexivity|now left]|apply REST; exact E]).
  - injection E as <- <-. apply ensure_H. exact HT.
  - injection E as <- <-. split; [reflexivity|now left].
  - apply REST. exact E.
Qed.

Lemma prepare_H n (s : qpb) xOpt yOpt guess Rin : xwf n s -> olen n xOpt -> olen n yOpt -> olen (n * n) Rin -> (forall gb, guess = Some gb -> gwf gb) ->
  o_enableRegularisation (q_opts s) = false -> wp (prepareInitial junk xOpt yOpt guess Rin s) (fun '(_, _, s') => sameH s s').
Proof.
  intros (W & V) Hx Hy HR HG OF. pose proof (w_n _ _ _ _ W) as Hn. unfold prepareInitial. cbv zeta.
  set (s0 := set_q_status QPS_NOTINITIALISED s).
  assert (W0 : qwf n s0 [] []) by (apply (wf_same n s); [exact W|samearr]).
  destruct (wp_inv _ _ (determineHessianType_safe n s0 [] [] W0)) as ((r, s1) & E0 & W1 & K1 & h & o & E1 & Ho). rewrite E0. cbn [bind].
  assert (S1 : sameH s s1) by (apply (htype_H s0 r s1); [exact OF|exact E0]).
  assert (V1 : virgin n s1) by (subst s1; exact V). clear E1 Ho h o.
  destruct (r =r? SUCCESSFUL_RETURN); cbn [negb]; [|cbn; exact S1].
  sstep. eapply wp_mono; [apply (setupSubjectToType_safe n s1 [] [] _ _ W1); cbn; [rewrite (w_lb _ _ _ _ W1)|rewrite (w_ub _ _ _ _ W1)]; lia|].
  intros s2 (W2 & b2 & E2 & B2).
  set (s3 := set_q_status QPS_PREPARINGAUXILIARYQP s2).
  assert (W3 : qwf n s3 [] []) by (apply (wf_same n s2); [exact W2|samearr]).
  assert (K3 : hk s3) by (subst s3 s2; exact K1).
  assert (S3 : sameH s s3) by (subst s3 s2; exact S1). assert (Q3 : q_status s3 = QPS_PREPARINGAUXILIARYQP) by reflexivity.
  assert (U3 : virgin n s3). { intros i Hi. subst s3 s2. cbn. destruct B2 as (_ & -> & _). now apply V1. }
  clearbody s3. clear s2 W2 E2 B2 b2 s1 W1 K1 S1 V1 E0 s0 W0.
  sstep. eapply wp_mono; [apply (setupAll_safe n s3 W3 U3)|]. intros [r4 b] (-> & W4 & I4 & M4).
  change (negb (SUCCESSFUL_RETURN =r? SUCCESSFUL_RETURN)) with false. cbn iota.
  set (s4 := set_q_bounds b s3) in *. set (m0 := setup_order _) in *.
  assert (K4 : hk s4) by exact K3. assert (S4 : sameH s s4) by exact S3. assert (Q4 : q_status s4 = QPS_PREPARINGAUXILIARYQP) by exact Q3.
  clearbody s4 m0. clear M4.
  sstep. eapply wp_mono; [apply (setupAuxiliaryQPsolution_safe n s4 m0 [] xOpt yOpt W4 Hx Hy)|]. intros s5 (W5 & x5 & y5 & E5).
  assert (S5 : hk s5 /\ sameH s s5 /\ q_status s5 = QPS_PREPARINGAUXILIARYQP) by (subst s5; auto).
  clear E5. destruct S5 as (K5 & S5 & Q5).
  sstep. eapply wp_mono; [apply (obtainAux_safe n s5 m0 [] xOpt yOpt guess W5 Hx Hy HG)|]. intros [r6 aux] HA.
  destruct (r6 =r? SUCCESSFUL_RETURN) eqn:E6; cbn [negb]; [|exact S5].
  apply rv_eqb_eq in E6. destruct (HA E6) as (An & Aw & As). clear HA E6 r6.
  assert (GA : gwf aux). { split; [exact Aw|]. intros i Hi. rewrite An in Hi. destruct (As i Hi) as [-> | X]; unfold good_status; auto. }
  sstep. eapply wp_mono; [apply (setupAuxiliaryWorkingSet_safe junk J n s5 m0 [] aux true W5 K5 GA Q5)|]. intros [r7 s7] (WS & _ & _).
  destruct WS as (p0 & p1 & b7 & R7 & f7 & W7 & E7 & _).
  assert (S7 : hk s7 /\ sameH s s7) by (subst s7; auto). clear E7. destruct S7 as (K7 & S7).
  destruct (r7 =r? SUCCESSFUL_RETURN); cbn [negb]; [|exact S7].
  sstep. eapply wp_mono with (P := fun '(r, s8) => qwf n s8 p0 p1 /\ hk s8 /\ sameH s s8).
  { destruct (_ || _); [|cbn; auto]. destruct (wp_inv _ _ (regulariseHessian_safe n s7 p0 p1 W7 K7)) as ((r8, s8) & E8 & W8 & K8 & _). rewrite E8. cbn. split; [exact W8|]. split; [exact K8|].
    eapply sameH_trans; [exact S7|]. eapply reg_H; [apply S7|exact E8]. }
  intros [r8 s8] (W8 & K8 & S8). destruct (r8 =r? SUCCESSFUL_RETURN); cbn [negb]; [|exact S8].
  sstep. eapply wp_mono; [apply (copyR_ok cpu n s8 p0 p1 Rin xOpt yOpt guess W8 HR)|]. intros s9 (W9 & R9 & b9 & E9).
  assert (S9 : hk s9 /\ sameH s s9) by (subst s9; auto). clear E9. destruct S9 as (K9 & S9).
  rewrite (w_nv _ _ _ _ W9). pose proof (J n ltac:(lia)) as Jn.
  rewrite (copy_eq n (q_g s9)), (copy_eq n (q_lb s9)), (copy_eq n (q_ub s9)); auto; try lia; try apply W9. cbn [bind].
  sstep. eapply wp_mono; [apply (setupAuxiliaryQPgradient_safe n s9 p0 p1 W9 K9)|]. intros s10 (W10 & g10 & E10).
  assert (S10 : sameH s s10) by (subst s10; auto). clear E10.
  sstep. eapply wp_mono; [apply (setupAuxiliaryQPbounds_safe n s10 p0 p1 true W10)|]. intros [r11 s11] (W11 & lb11 & ub11 & E11).
  assert (S11 : sameH s s11) by (subst s11; auto). destruct (r11 =r? SUCCESSFUL_RETURN); exact S11.
Qed.

(** init leaves the matrix it was given as it was, whatever it returns; when it
    keeps an earlier one instead, that one is left as well *)
Theorem C44_init n (s : qpb) fuel h g lb ub nWSR xOpt yOpt guess Rin r k s' : qok n s -> fuel_ok n (q_opts s) fuel ->
  harg_ok n h -> olen n g -> olen n lb -> olen n ub -> olen n xOpt -> olen n yOpt -> olen (n * n) Rin -> (forall gb, guess = Some gb -> gwf gb) ->
  o_enableRegularisation (q_opts s) = false ->
  qb_init junk cpu fuel h g lb ub nWSR xOpt yOpt guess Rin s = Ok (r, k, s') ->
  (q_H s' = q_H s \/ q_H s' = passed n h) /\ (r = SUCCESSFUL_RETURN -> h <> HArr None -> q_H s' = passed n h) /\ hsafe s'.
Proof.
  intros OK FU Hh Hg Hl Hu Hx Hy HR HG OF E. unfold qb_init in E.
  assert (Hn : 0 < n) by (destruct OK as (? & ? & [] & _); auto).
  assert (NV : nV s = n) by (destruct OK as (l0 & l1 & W & _); exact (w_nv _ _ _ _ W)).
  rewrite NV in E. destruct (Z.eqb_spec n 0); [lia|]. apply bind_ok in E as (s1 & E1 & E).
  assert (A1 : xwf n s1 /\ q_status s1 = QPS_NOTINITIALISED /\ q_opts s1 = q_opts s /\ q_H s1 = q_H s).
  { revert E1. unfold isInitialised, is_qps. destruct (qps_eq_dec (q_status s) QPS_NOTINITIALISED) as [X|X]; cbn [negb]; intros E1.
    - injection E1 as <-. destruct OK as (l0 & l1 & W & V & _). destruct (V X) as (-> & -> & U). split; [split; auto|]. auto.
    - apply bind_ok in E1 as ((r1, s1') & E2 & E1). injection E1 as <-. pose proof (reset_ok n s OK) as Y. rewrite E2 in Y. destruct Y as (_ & (l0 & l1 & W & V & _) & Q & _ & _ & C & O & HH).
      destruct (V Q) as (-> & -> & U). split; [split; auto|]. auto. }
  destruct A1 as (W1 & Q1 & O1 & H1).
  assert (EARLY : forall s2, q_H s2 = q_H s -> q_opts s2 = q_opts s -> hsafe s2) by (intros s2 _ B; left; congruence).
  apply bind_ok in E as (ok & _ & E).
  assert (DONE : forall r', r' <> SUCCESSFUL_RETURN -> Ok (r', nWSR, s1) = Ok (r, k, s') -> (q_H s' = q_H s \/ q_H s' = passed n h) /\ (r = SUCCESSFUL_RETURN -> h <> HArr None -> q_H s' = passed n h) /\ hsafe s').
  { intros r' NE [= <- <- <-]. split; [auto|]. split; [intros; contradiction|auto]. }
  destruct (negb ok) in E; [eapply DONE; [|exact E]; discriminate|].
  destruct (match xOpt with None => _ | Some _ => _ end) in E; [eapply DONE; [|exact E]; discriminate|].
  destruct (match Rin with None => _ | Some _ => _ end) in E; [eapply DONE; [|exact E]; discriminate|]. clear DONE.
  apply bind_ok in E as ((r2, s2) & E2 & E).
  pose proof (setupQPdata_ok cpu n h g lb ub s1 W1 Hh Hg Hl Hu) as X. rewrite E2 in X. cbn [wp] in X. destruct X as (W2 & Q2 & _ & O2 & RS).
  assert (HH : q_H (qb_setH h s1) = q_H s \/ q_H (qb_setH h s1) = passed n h).
  { unfold qb_setH. rewrite (w_nv _ _ _ _ (proj1 W1)). destruct h as [M|[a|]]; cbn; auto. destruct (is_hst _ _); auto. }
  assert (HH' : h <> HArr None -> q_H (qb_setH h s1) = passed n h).
  { unfold qb_setH. rewrite (w_nv _ _ _ _ (proj1 W1)). destruct h as [M|[a|]]; cbn; auto. intros F; contradiction. }
  assert (HS2 : q_H s2 = q_H (qb_setH h s1)).
  { destruct RS as [(_ & ->)|(_ & _ & ->)]; [|reflexivity]. unfold setupQPdata in E2. now injection E2 as _ <-. }
  rewrite <- HS2 in HH, HH'.
  assert (OF2 : o_enableRegularisation (q_opts s2) = false) by congruence.
  destruct (negb _) eqn:E3 in E.
  { injection E as <- <- <-. split; [exact HH|]. split; [discriminate|now left]. }
  unfold solveInitialQP in E. apply bind_ok in E as ([[r3 [[g0 lb0] ub0]] s3] & E4 & E).
  pose proof (wp_conj _ _ _ (prepare_H n s2 xOpt yOpt guess Rin W2 Hx Hy HR HG OF2) (prepareInitial_ok junk J cpu n s2 xOpt yOpt guess Rin W2 Hx Hy HR HG)) as X. rewrite E4 in X.
  destruct X as (S3 & OK3 & _ & O3 & X).
  assert (FIN : forall s', sameH s2 s' -> (q_H s' = q_H s \/ q_H s' = passed n h) /\ (r = SUCCESSFUL_RETURN -> h <> HArr None -> q_H s' = passed n h) /\ hsafe s').
  { intros t (A & B). rewrite A. auto. }
  destruct (r3 =r? SUCCESSFUL_RETURN) eqn:E5; cbn [negb] in E; [|injection E as <- <- <-; auto].
  apply rv_eqb_eq in E5. subst r3. destruct X as [(_ & Q3 & -> & -> & ->)|([X|X] & _)]; [|discriminate X..].
  apply bind_ok in E as ([[r4 k4] s4] & E6 & E).
  assert (S4 : sameH s2 s4).
  { eapply sameH_trans; [exact S3|]. eapply C44_hotstart; [exact OK3|congruence|eapply fuel_opt; [|exact FU]; rewrite <- O1, <- O2; exact O3|..|exact E6].
    - rewrite (w_g _ _ _ _ (proj1 W2)); lia.
    - cbn; rewrite (w_lb _ _ _ _ (proj1 W2)); lia.
    - cbn; rewrite (w_ub _ _ _ _ (proj1 W2)); lia.
    - discriminate.
    - apply S3. }
  destruct (q_infeasible s4); [injection E as <- <- <-; auto|]. destruct (q_unbounded s4); [injection E as <- <- <-; auto|].
  destruct (_ && _) in E; injection E as <- <- <-; auto.
Qed.

(** ** C45 *)
Ltac same := eapply rr_bind; [apply rr_eq; reflexivity|cbv beta; intros ? ? <-].
Ltac cond := match goal with |- rr _ (if ?b then _ else _) (if ?b' then _ else _) => change b' with b; destruct b end.

Lemma fill_eq n (src : option arr) (a b : arr) : 0 <= n -> olen n src -> zlen a = n -> zlen b = n ->
  for_up 0 n (fun i a => v <- match src with Some o => rd o i | None => Ok n0 end ;; wr a i v) a =
  for_up 0 n (fun i a => v <- match src with Some o => rd o i | None => Ok n0 end ;; wr a i v) b.
Proof.
  intros Hn Hs La Lb. set (val := fun i => match src with Some o => zn n0 o i | None => n0 end).
  assert (G : forall c : arr, zlen c = n -> exists d, for_up 0 n (fun i a => v <- match src with Some o => rd o i | None => Ok n0 end ;; wr a i v) c = Ok d /\ zlen d = n /\ forall k, 0 <= k < n -> zn n0 d k = val k).
  { intros c Lc. apply wp_inv. apply wp_fill with (d := n0) (v := val); [lia| |].
    - intros i t Hi Lt. unfold val. destruct src as [o|]; cbn in Hs; [rewrite (rd_ok n0) by lia|]; cbn [bind]; apply wr_ok; lia.
    - intros d L V _. split; [lia|exact V]. }
  destruct (G a La) as (d & -> & Ld & Vd), (G b Lb) as (e & -> & Le & Ve). f_equal. apply (list_ext_zn n0); [lia|]. intros i Hi. rewrite Vd, Ve by lia. reflexivity.
Qed.
(** the same but for the number of hotstarts and the working set kept in the Flipper *)
Definition same_object (s t : qpb) : Prop := t = set_q_count (q_count t) (set_q_flip (q_flip t) s).
Lemma alike_same s t : alike s t -> same_object s t.
Proof. intros (c & f & -> & _). reflexivity. Qed.

(** apart from these also x and y *)
Definition alikexy (s t : qpb) : Prop := exists c f x y, t = up c f (set_q_x x (set_q_y y s)) /\ feq f (q_flip s) /\ zlen x = zlen (q_x s) /\ zlen y = zlen (q_y s).
Lemma htype_xy s t : alikexy s t -> rr (fun p q => fst p = fst q /\ alikexy (snd p) (snd q) /\ q_status (snd p) = q_status s) (determineHessianType s) (determineHessianType t).
Proof.
  intros (c & f & x & y & -> & F & Lx & Ly). unfold determineHessianType.
  assert (FIN : forall r s', q_x s' = q_x s -> q_y s' = q_y s -> q_flip s' = q_flip s -> q_status s' = q_status s -> rr (fun p q : returnValue * qpb => fst p = fst q /\ alikexy (snd p) (snd q) /\ q_status (snd p) = q_status s)
      (Ok (r, s')) (Ok (r, up c f (set_q_x x (set_q_y y s'))))).
  { intros r s' E1 E2 E3 E4. cbn. split; [reflexivity|]. split; [|exact E4]. exists c, f, x, y. rewrite E1, E2, E3. auto. }
  assert (EN : forall s' : qpb, ensure_regularisation (up c f (set_q_x x (set_q_y y s'))) = up c f (set_q_x x (set_q_y y (ensure_regularisation s')))).
  { intros s'. unfold ensure_regularisation. change (q_opts (up c f (set_q_x x (set_q_y y s')))) with (q_opts s'). destruct (o_enableRegularisation (q_opts s')); reflexivity. }
  assert (EX : forall s' : qpb, q_x (ensure_regularisation s') = q_x s' /\ q_y (ensure_regularisation s') = q_y s' /\ q_flip (ensure_regularisation s') = q_flip s' /\ q_status (ensure_regularisation s') = q_status s').
  { intros s'. unfold ensure_regularisation. destruct (o_enableRegularisation (q_opts s')); auto. }
  cbv zeta. change (q_H (up c f (set_q_x x (set_q_y y s)))) with (q_H s). change (q_htype (up c f (set_q_x x (set_q_y y s)))) with (q_htype s).
  assert (Z0 : forall s' : qpb, q_x s' = q_x s -> q_y s' = q_y s -> q_flip s' = q_flip s -> q_status s' = q_status s -> rr (fun p q : returnValue * qpb => fst p = fst q /\ alikexy (snd p) (snd q) /\ q_status (snd p) = q_status s)
      (Ok (SUCCESSFUL_RETURN, ensure_regularisation s')) (Ok (SUCCESSFUL_RETURN, ensure_regularisation (up c f (set_q_x x (set_q_y y s')))))).
  { intros s' A B C D. rewrite EN. destruct (EX s') as (X1 & X2 & X3 & X4). apply FIN; congruence. }
  destruct (q_htype s) eqn:HT.
  1: apply (Z0 s); reflexivity.
  1: apply (FIN _ s); reflexivity.
  all: destruct (q_H s) as [M|]; [|apply (Z0 (set_q_htype HST_ZERO s)); reflexivity]; try (apply (FIN _ s); reflexivity).
  same. cond; [apply (FIN _ (set_q_htype HST_POSDEF s)); reflexivity|].
  change (nV (set_q_htype HST_POSDEF (up c f (set_q_x x (set_q_y y s))))) with (nV (set_q_htype HST_POSDEF s)).
  eapply rr_bind with (P := rctl eq (fun p q : returnValue * qpb => fst p = fst q /\ alikexy (snd p) (snd q) /\ q_status (snd p) = q_status s)).
  - apply rr_forb; [reflexivity|]. intros i [u v] ? <-. same. cond; [cbn; split; [reflexivity|]; split; [|reflexivity]; exists c, f, x, y; auto|].
    cond; [cbn; split; [reflexivity|]; split; [|reflexivity]; exists c, f, x, y; auto|]. cbn. reflexivity.
  - intros [[u v]|e] [t|e2]; cbn [rctl]; try contradiction.
    + intros <-. destruct v; [destruct u; [apply (Z0 (set_q_htype HST_ZERO (set_q_htype HST_IDENTITY (set_q_htype HST_POSDEF s))))|apply (Z0 (set_q_htype HST_ZERO (set_q_htype HST_POSDEF s)))]; reflexivity|].
      destruct u; [apply (FIN _ (set_q_htype HST_IDENTITY (set_q_htype HST_POSDEF s)))|apply (FIN _ (set_q_htype HST_POSDEF s))]; reflexivity.
    + intros H. exact H.
Qed.
Lemma types_xy s t lb ub : alikexy s t -> rr (fun s' t' => alikexy s' t' /\ q_status s' = q_status s /\ q_x s' = q_x s /\ q_y s' = q_y s /\ q_flip s' = q_flip s) (setupSubjectToType lb ub s) (setupSubjectToType lb ub t).
Proof.
  intros (c & f & x & y & -> & F & Lx & Ly). unfold setupSubjectToType. repeat same. cbn. split; [exists c, f, x, y; auto|auto].
Qed.

Ltac al2 := let r := fresh "r" in let r' := fresh in let s := fresh "s" in let s' := fresh in let c := fresh "c" in let f := fresh "f" in let F := fresh "F" in
  let E := fresh in let E' := fresh in
  intros [r s] [r' s'] (E & c & f & E' & F); cbn [fst snd] in E, E', F; subst r' s'.
(** what prepareInitial returns *)
Definition prep_same (n : Z) (p q : returnValue * (arr * arr * arr) * qpb) : Prop :=
  fst p = fst q /\ q_status (snd p) = q_status (snd q) /\ (fst (fst p) = RET_INIT_FAILED \/ alike (snd p) (snd q)).
Lemma prep_xy n (s t : qpb) xOpt yOpt guess Rin : xwf n s -> olen n xOpt -> olen n yOpt -> alikexy s t ->
  rr (prep_same n) (prepareInitial junk xOpt yOpt guess Rin s) (prepareInitial junk xOpt yOpt guess Rin t).
Proof.
  intros (W & V) Hx Hy A. pose proof (w_n _ _ _ _ W) as Hn. unfold prepareInitial. cbv zeta.
  set (s0 := set_q_status QPS_NOTINITIALISED s).
  assert (W0 : qwf n s0 [] []) by (apply (wf_same n s); [exact W|samearr]).
  assert (A0 : alikexy s0 (set_q_status QPS_NOTINITIALISED t)) by (destruct A as (c & f & x & y & -> & F); exists c, f, x, y; auto).
  destruct (wp_inv _ _ (determineHessianType_safe n s0 [] [] W0)) as ((r, s1) & E0 & W1 & K1 & h & o & E1 & Ho).
  pose proof (htype_xy _ _ A0) as X. rewrite E0 in *. cbn [rr] in X.
  destruct (determineHessianType (set_q_status QPS_NOTINITIALISED t)) as [[r' t1]| |]; try contradiction. destruct X as (X1 & A1 & Q1). cbn [fst snd] in X1, A1, Q1. subst r'. cbn [bind].
  destruct (r =r? SUCCESSFUL_RETURN); cbn [negb].
  2:{ cbn. split; [reflexivity|]. split; [|now left]. destruct A1 as (c & f & x & y & -> & F). reflexivity. }
  assert (L1 : n <= zlen (q_lb s1) /\ n <= zlen (q_ub s1)) by (split; apply Z.eq_le_incl; symmetry; apply W1).
  pose proof (wp_inv _ _ (setupSubjectToType_safe n s1 [] [] (Some (q_lb s1)) (Some (q_ub s1)) W1 (proj1 L1) (proj2 L1))) as (s2 & E2 & W2 & b2 & EB & B2).
  assert (D : Some (q_lb t1) = Some (q_lb s1) /\ Some (q_ub t1) = Some (q_ub s1)) by (destruct A1 as (c & f & x & y & -> & F); auto).
  destruct D as (-> & ->). pose proof (types_xy s1 t1 (Some (q_lb s1)) (Some (q_ub s1)) A1) as X. rewrite E2 in *.
  destruct (setupSubjectToType _ _ t1) as [t2| |]; try contradiction. cbn [rr] in X. destruct X as (A2 & Q2 & _). cbn [bind].
  destruct A2 as (c & f & x & y & -> & F & Lx & Ly). rewrite (w_x _ _ _ _ W2) in Lx. rewrite (w_y _ _ _ _ W2) in Ly.
  set (s3 := set_q_status QPS_PREPARINGAUXILIARYQP s2).
  assert (W3 : qwf n s3 [] []) by (apply (wf_same n s2); [exact W2|samearr]).
  assert (U3 : virgin n s3). { intros i Hi. subst s3 s2 s1. cbn. destruct B2 as (_ & -> & _). now apply V. }
  destruct (wp_inv _ _ (setupAll_safe n s3 W3 U3)) as ([r4 b] & E4 & -> & W4 & _).
  change (set_q_status QPS_PREPARINGAUXILIARYQP (up c f (set_q_x x (set_q_y y s2)))) with (up c f (set_q_x x (set_q_y y s3))).
  change (q_bounds (up c f (set_q_x x (set_q_y y s3)))) with (q_bounds s3). rewrite E4. cbn [bind]. change (negb (SUCCESSFUL_RETURN =r? SUCCESSFUL_RETURN)) with false. cbn iota.
  change (set_q_bounds b (up c f (set_q_x x (set_q_y y s3)))) with (up c f (set_q_x x (set_q_y y (set_q_bounds b s3)))).
  assert (F3 : feq f (q_flip (set_q_bounds b s3))) by exact F. set (s4 := set_q_bounds b s3) in *. clearbody s4. clear F.
  eapply rr_bind with (P := alike).
  { unfold setupAuxiliaryQPsolution. change (nV (up c f (set_q_x x (set_q_y y s4)))) with (nV s4). rewrite (w_nv _ _ _ _ W4).
    eapply rr_bind with (P := eq); [apply rr_eq, fill_eq; [lia|exact Hx|apply W4|exact Lx]|]. intros u ? <-.
    eapply rr_bind with (P := eq); [apply rr_eq, fill_eq; [lia|exact Hy|apply W4|exact Ly]|]. intros v ? <-. cbn. exists c, f. split; [reflexivity|exact F3]. }
  clear. intros s t (c & f & -> & F). same. destruct a as [r6 aux].
  assert (FIN : forall (r : returnValue) (d : arr * arr * arr) s c f, feq f (q_flip s) -> rr (prep_same n) (Ok (r, d, s)) (Ok (r, d, up c f s))).
  { clear. intros r d s c f F. cbn. split; [reflexivity|]. split; [reflexivity|]. right. exists c, f. auto. }
  cond; [apply FIN; exact F|]. eapply rr_bind with (P := alike2); [apply setupAuxiliaryWorkingSet_al; exact F|al2].
  cond; [apply FIN; assumption|]. eapply rr_bind with (P := alike2); [cond; [now apply regulariseHessian_al|cbn; now apply al_ok]|al2].
  cond; [apply FIN; assumption|]. eapply rr_bind with (P := alike).
  { unfold copyR. cbv zeta. destruct Rin as [R|]; [|cbn; eexists _, _; split; [reflexivity|eassumption]]. cond; [cbn; eexists _, _; split; [reflexivity|eassumption]|].
    destruct xOpt, yOpt, guess; try (cbn; eexists _, _; split; [reflexivity|eassumption]). same. cbn; eexists _, _; split; [reflexivity|eassumption]. }
  intros s9 ? (c9 & f9 & -> & F9). same. same. same.
  eapply rr_bind with (P := alike); [now apply setupAuxiliaryQPgradient_al|]. intros s10 ? (c10 & f10 & -> & F10).
  eapply rr_bind with (P := alike2); [now apply setupAuxiliaryQPbounds_al|al2]. cond; [apply FIN; assumption|].
  match goal with |- rr _ (Ok (_, _, ?x)) _ => apply (FIN SUCCESSFUL_RETURN (a, a0, a1) x); assumption end.
Qed.

(** init on an object that was initialised before gives what it gives on a new
    object of unknown Hessian type with the same options.  delta_xFR_TMP is
    uninitialised in a new object; here it holds what the old one holds.  The clock
    goes on. *)
Definition afresh n (s : qpb) : qpb := set_q_wsc (q_wsc s) (set_q_clk (q_clk s) (set_q_tmp (q_tmp s) (qb_new junk n HST_UNKNOWN (q_opts s)))).
Definition init_same (p q : returnValue * Z * qpb) : Prop :=
  fst p = fst q /\ q_status (snd p) = q_status (snd q) /\
  (fst (fst p) = RET_INVALID_ARGUMENTS \/ fst (fst p) = RET_NO_CHOLESKY_WITH_INITIAL_GUESS \/ fst (fst p) = RET_INIT_FAILED \/ same_object (snd p) (snd q)).

Lemma rr_wp {A B} (P : A -> B -> Prop) (Q : A -> Prop) m1 m2 : wp m1 Q -> rr P m1 m2 -> rr (fun a b => P a b /\ Q a) m1 m2.
Proof. destruct m1, m2; cbn; auto. Qed.
Lemma setVec_eq n (src : option arr) (a b : arr) v : 0 <= n -> olen n src -> zlen a = n -> zlen b = n -> setVec a src n v = setVec b src n v.
Proof.
  intros Hn Hs La Lb. unfold setVec. destruct src as [o|].
  - unfold memcpy. cbn in Hs. destruct (Z.ltb_spec (zlen o) n); [lia|]. rewrite La, Lb. destruct (Z.ltb_spec n n); [lia|]. cbn. f_equal. f_equal.
    rewrite !skipn_all2; auto; unfold zlen in *; lia.
  - assert (G : forall c : arr, zlen c = n -> exists d, for_up 0 n (fun i a => wr a i v) c = Ok d /\ zlen d = n /\ forall k, 0 <= k < n -> zn n0 d k = v).
    { intros c Lc. apply wp_inv. apply wp_fill with (d := n0) (v := fun _ => v); [lia| |].
      - intros i t Hi Lt. apply wr_ok; lia.
      - intros d L V _. split; [lia|exact V]. }
    destruct (G a La) as (d & -> & Ld & Vd), (G b Lb) as (e & -> & Le & Ve). f_equal. apply (list_ext_zn n0); [lia|]. intros i Hi. rewrite Vd, Ve by lia. reflexivity.
Qed.

Theorem C45_again n (s : qpb) fuel h g lb ub nWSR xOpt yOpt guess Rin : qok n s -> isInitialised s = true ->
  harg_ok n h -> olen n g -> olen n lb -> olen n ub -> olen n xOpt -> olen n yOpt -> 
  rr init_same (qb_init junk cpu fuel h g lb ub nWSR xOpt yOpt guess Rin s) (qb_init junk cpu fuel h g lb ub nWSR xOpt yOpt guess Rin (afresh n s)).
Proof.
  intros OK II Hh Hg Hl Hu Hx Hy. unfold qb_init.
  assert (Hn : 0 < n) by (destruct OK as (? & ? & [] & _); auto).
  assert (NV : nV s = n) by (destruct OK as (l0 & l1 & W & _); exact (w_nv _ _ _ _ W)).
  assert (NF : nV (afresh n s) = n). { unfold nV, afresh, qb_new. cbn. destruct (Z.leb_spec n 0); [lia|]. unfold st_new, st_init. destruct (Z.ltb_spec n 0); [lia|reflexivity]. }
  rewrite NV, NF, II. destruct (Z.eqb_spec n 0) as [Hz|Hz]; [lia|]. change (isInitialised (afresh n s)) with false. cbn iota.
  assert (WF : xwf n (afresh n s)).
  { pose proof (new_ok junk J n HST_UNKNOWN (q_opts s)) as (l0 & l1 & W & V & _). destruct (Z.leb_spec n 0); [lia|]. destruct (V eq_refl) as (-> & -> & U). split; [|exact U].
    destruct OK as (? & ? & W' & _). pose proof (w_tmp _ _ _ _ W'). destruct W. constructor; auto. }
  destruct (wp_inv _ _ (reset_ok n s OK)) as ((r1, s1) & E1 & -> & OK1 & Q1 & _ & _ & C1 & O1 & H1). rewrite E1. cbn [bind].
  assert (XW : xwf n s1). { destruct OK1 as (l0 & l1 & W & V & _). destruct (V Q1) as (-> & -> & U). split; auto. }
  (* what reset leaves *)
  assert (R1 : exists c f, feq f (fl_new n 0) /\ s1 = set_q_count c (set_q_flip f (set_q_x (q_x s) (set_q_y (q_y s) (set_q_ub (q_ub s) (set_q_lb (q_lb s) (set_q_g (q_g s) (set_q_H (q_H s) (set_q_freeH (q_freeH s) (afresh n s)))))))))).
  { unfold qb_reset in E1. rewrite NV in E1. destruct (Z.eqb_spec n 0) as [Hz'|Hz']; [lia|]. apply bind_ok in E1 as (R & ER & E1). injection E1 as <-. exists (q_count s), (fl_init (q_flip s) n 0). split; [repeat split|].
    assert (RZ : R = zeros (n * n)).
    { destruct OK as (? & ? & W & _). pose proof (w_R _ _ _ _ W) as LR.
      assert (X : wp (for_up 0 (n * n) (fun i R => wr R i n0) (q_R s)) (fun R => zlen R = n * n /\ forall k, 0 <= k < n * n -> zn n0 R k = n0)).
      { apply wp_fill with (d := n0) (v := fun _ => n0); [nia| |].
        - intros i t Hi Lt. apply wr_ok; lia.
        - intros d L V _. split; [lia|exact V]. }
      rewrite ER in X. destruct X as (X1 & X2). apply (list_ext_zn n0); [unfold zeros; rewrite zlen_repeat; nia|]. intros i Hi. rewrite X2 by lia. unfold zeros. rewrite zn_repeat; [auto|lia]. }
    rewrite RZ. unfold afresh, qb_new, st_new. destruct (Z.leb_spec n 0); [lia|]. unfold st_init. destruct (Z.ltb_spec n 0); [lia|]. reflexivity. }
  destruct R1 as (c & f & F & R1).
  assert (LX : zlen (q_x s) = n /\ zlen (q_y s) = n /\ zlen (q_g s) = n /\ zlen (q_lb s) = n /\ zlen (q_ub s) = n) by (destruct OK as (? & ? & [] & _); auto).
  destruct LX as (Lx & Ly & Lg & Ll & Lu).
  assert (LF : zlen (q_x (afresh n s)) = n /\ zlen (q_y (afresh n s)) = n /\ zlen (q_g (afresh n s)) = n /\ zlen (q_lb (afresh n s)) = n /\ zlen (q_ub (afresh n s)) = n) by (destruct WF as ([] & _); auto).
  destruct LF as (Kx & Ky & Kg & Kl & Ku).
  assert (N1 : nV s1 = n) by (subst s1; exact NF). rewrite N1, NF.
  eapply rr_bind with (P := eq); [apply rr_eq; reflexivity|]. intros ok ? <-.
  assert (EARLY : forall r : returnValue, r = RET_INVALID_ARGUMENTS \/ r = RET_NO_CHOLESKY_WITH_INITIAL_GUESS -> rr init_same (Ok (r, nWSR, s1)) (Ok (r, nWSR, afresh n s))).
  { intros r Hr. cbn. split; [reflexivity|]. split; [exact Q1|]. cbn. tauto. }
  cond; [apply EARLY; auto|]. cond; [apply EARLY; auto|]. cond; [apply EARLY; auto|]. clear EARLY.
  eapply rr_bind.
  { apply rr_wp with (Q := fun '(r, s') => xwf n s') (P := fun p q => fst p = fst q /\ q_status (snd p) = QPS_NOTINITIALISED /\ q_status (snd q) = QPS_NOTINITIALISED /\ (fst p = SUCCESSFUL_RETURN -> alikexy (snd p) (snd q))).
    { eapply wp_mono; [apply (setupQPdata_ok cpu n h g lb ub s1 XW Hh Hg Hl Hu)|]. intros [r2 s2] (X & _). exact X. }
    unfold setupQPdata. cbv zeta. destruct g as [g|].
    2:{ cbn. split; [reflexivity|]. destruct (setH_frame h s1) as (-> & _). destruct (setH_frame h (afresh n s)) as (-> & _). split; [exact Q1|]. split; [reflexivity|discriminate]. }
    assert (SH : qb_setH h s1 = set_q_count c (set_q_flip f (set_q_x (q_x s) (set_q_y (q_y s) (set_q_ub (q_ub s) (set_q_lb (q_lb s) (set_q_g (q_g s) (qb_setH h (afresh n s))))))))).
    { rewrite R1. unfold qb_setH. destruct h as [M|[a|]]; reflexivity. }
    rewrite SH. set (t0 := qb_setH h (afresh n s)).
    assert (T0 : nV t0 = n /\ zlen (q_x t0) = n /\ zlen (q_y t0) = n /\ zlen (q_g t0) = n /\ zlen (q_lb t0) = n /\ zlen (q_ub t0) = n /\ q_status t0 = QPS_NOTINITIALISED /\ q_flip t0 = fl_new n 0).
    { unfold t0, qb_setH. destruct h as [M|[a|]]; cbn [q_x q_y q_g q_lb q_ub q_status set_q_H set_q_freeH set_q_htype]; repeat (split; [assumption|]); try (split; [reflexivity|]); unfold afresh, qb_new; cbn; destruct (Z.leb_spec n 0); auto; lia. }
    destruct T0 as (T0 & Tx & Ty & Tg & Tl & Tu & Ts & Tf). clearbody t0.
    match goal with |- context [nV (set_q_count ?a ?b)] => change (nV (set_q_count a b)) with (nV t0) end. rewrite T0.
    cbn [q_g q_lb q_ub set_q_count set_q_flip set_q_x set_q_y set_q_ub set_q_lb set_q_g].
    eapply rr_bind with (P := eq); [apply rr_eq, setVec_eq; auto; lia|]. intros g1 ? <-.
    eapply rr_bind with (P := eq); [apply rr_eq, setVec_eq; auto; lia|]. intros l1 ? <-.
    eapply rr_bind with (P := eq); [apply rr_eq, setVec_eq; auto; lia|]. intros u1 ? <-. cbn [rr fst snd].
    split; [reflexivity|]. split; [exact Ts|]. split; [exact Ts|]. intros _. exists (q_count t0), (q_flip t0), (q_x t0), (q_y t0).
    split; [destruct t0; reflexivity|]. cbn. rewrite Tf. split; [|lia]. destruct F as (F1 & F2 & F3 & F4 & F5). repeat split; congruence. }
  intros [r2 s2] [r2' t2] ((E & QS & QT & A) & W2). cbn [fst snd] in E, QS, QT, A. subst r2'.
  destruct (r2 =r? SUCCESSFUL_RETURN) eqn:ER; cbn [negb]; [|cbn; split; [reflexivity|]; split; [cbn; congruence|now left]].
  apply rv_eqb_eq in ER. specialize (A ER). clear - A W2 Hx Hy. unfold solveInitialQP.
  eapply rr_bind; [apply (prep_xy n); eassumption|]. intros [[r [[g0 lb0] ub0]] s] [[r' [[g0' lb0'] ub0']] t] (E & QS & A3). cbn [fst snd] in E, QS, A3. injection E as <- <- <- <-.
  destruct (r =r? SUCCESSFUL_RETURN) eqn:ER; cbn [negb].
  2:{ cbn. split; [reflexivity|]. split; [exact QS|]. cbn. destruct A3 as [-> |A3]; [tauto|]. do 3 right. now apply alike_same. }
  apply rv_eqb_eq in ER. subst r. destruct A3 as [X|(c & f & -> & F)]; [discriminate X|].
  eapply rr_bind; [apply hotstart_al; exact F|]. intros [[r4 k4] s4] [[? ?] ?] (E & c4 & f4 & E' & F4). cbn [fst snd] in E, E', F4. injection E as <- <-. subst.
  assert (FIN : forall r : returnValue, rr init_same (Ok (r, k4, s4)) (Ok (r, k4, up c4 f4 s4))).
  { intros r. cbn. split; [reflexivity|]. split; [reflexivity|]. cbn. do 3 right. reflexivity. }
  cond; [apply FIN|]. cond; [apply FIN|]. cond; apply FIN.
Qed.
End Data.

Section Histories.
Context {N : Num}.
Notation arr := (list N).
Variable junk : Z -> arr.
Hypothesis J : junk_ok junk.
Variable cpu : Z -> bool.
(** C45 for every history before the second init *)
Theorem C45_history n l (s : qpb N) fuel h g lb ub nWSR xOpt yOpt guess Rin : hist junk cpu n l s -> isInitialised s = true ->
  harg_ok n h -> olen n g -> olen n lb -> olen n ub -> olen n xOpt -> olen n yOpt ->
  rr init_same (qb_init junk cpu fuel h g lb ub nWSR xOpt yOpt guess Rin s) (qb_init junk cpu fuel h g lb ub nWSR xOpt yOpt guess Rin (afresh junk n s)).
Proof. intros H. apply (C45_again junk J). exact (hist_ok junk cpu J n l s H). Qed.
End Histories.

(** ** Counterexamples and examples *)
Definition d_nolimit : Z -> bool := fun _ => false.
Definition d_init (h : option (list Q)) (s : qpb QNum) : res (returnValue * Z * qpb QNum) :=
  qb_init (N := QNum) ce_junk d_nolimit 30 (HArr (N := QNum) h) (Some [1%Q]) (Some [(-3)%Q]) (Some [1%Q]) 10 None None None None s.
Definition d_then (m : res (returnValue * Z * qpb QNum)) (k : qpb QNum -> res (returnValue * Z * qpb QNum)) : res (returnValue * Z * qpb QNum) :=
  match m with Ok (_, _, s) => k s | UB => UB | Hang => Hang end.
Definition d_new (h : HessianType) (o : options QNum) : qpb QNum := qb_new (N := QNum) ce_junk 1 h o.
Definition d_val (s : qpb QNum) : list Q := match q_H s with Some (SDense A) => d_val A | _ => [] end.

(** C44: with regularisation enabled the caller's matrix is changed *)
Theorem C44_refuted : exists o k s', d_init (Some [4%Q]) (d_new HST_UNKNOWN o) = Ok (SUCCESSFUL_RETURN, k, s') /\ passed (N := QNum) 1 (HArr (N := QNum) (Some [4%Q])) = Some (SDense (N := QNum) (mkDense 1 1 1 [4%Q])) /\
  exists v, q_H s' = Some (SDense (N := QNum) (mkDense 1 1 1 [v])) /\ Qeq_bool v 4%Q = false.
Proof.
  exists (set_o_enableRegularisation (N := QNum) true optDefault).
  assert (T : match d_init (Some [4%Q]) (d_new HST_UNKNOWN (set_o_enableRegularisation (N := QNum) true optDefault)) with Ok (SUCCESSFUL_RETURN, k, s') => match q_H s' with Some (SDense A) => match Matrices.d_val A with [v] => d_nr A = 1 /\ d_nc A = 1 /\ d_ld A = 1 /\ Qeq_bool v 4%Q = false | _ => False end | _ => False end | _ => False end) by (vm_compute; auto).
  destruct (d_init _ _) as [[[r k] s']| |]; try contradiction. destruct r; try contradiction. exists k, s'. split; [reflexivity|]. split; [reflexivity|].
  destruct (q_H s') as [[A|]|]; try contradiction. destruct A as [a b c l]. cbn in T. destruct l as [|v [|]]; try contradiction. destruct T as (-> & -> & -> & T). exists v. auto.
Qed.

(** without it being enabled by the user as well: solving a QP with zero Hessian
    enables it for good (QProblemB.cpp:1187-1191), and the next matrix is changed *)
Theorem C44_reinit_refuted : exists s1 k s', o_enableRegularisation (q_opts (d_new HST_UNKNOWN optDefault)) = false /\
  d_init (Some [0%Q]) (d_new HST_UNKNOWN optDefault) = Ok (SUCCESSFUL_RETURN, 0, s1) /\ d_init (Some [4%Q]) s1 = Ok (SUCCESSFUL_RETURN, k, s') /\
  exists v, q_H s' = Some (SDense (N := QNum) (mkDense 1 1 1 [v])) /\ Qeq_bool v 4%Q = false.
Proof.
  assert (T : match d_init (Some [0%Q]) (d_new HST_UNKNOWN optDefault) with Ok (SUCCESSFUL_RETURN, 0, s1) => match d_init (Some [4%Q]) s1 with Ok (SUCCESSFUL_RETURN, k, s') =>
     match q_H s' with Some (SDense A) => match Matrices.d_val A with [v] => d_nr A = 1 /\ d_nc A = 1 /\ d_ld A = 1 /\ Qeq_bool v 4%Q = false | _ => False end | _ => False end | _ => False end | _ => False end) by (vm_compute; auto).
  destruct (d_init (Some [0%Q]) _) as [[[r1 k1] s1]| |]; try contradiction. destruct r1; try contradiction. destruct k1; try contradiction.
  destruct (d_init (Some [4%Q]) s1) as [[[r k] s']| |] eqn:E2; try contradiction. destruct r; try contradiction. exists s1, k, s'. split; [reflexivity|]. split; [reflexivity|]. split; [exact E2|].
  destruct (q_H s') as [[A|]|]; try contradiction. destruct A as [a b c l]. cbn in T. destruct l as [|v [|]]; try contradiction. destruct T as (-> & -> & -> & T). exists v. auto.
Qed.

(** C45: reset forgets the Hessian type given to the constructor *)
Theorem C45_refuted : exists s1 s' s2, d_init None (d_new HST_IDENTITY optDefault) = Ok (SUCCESSFUL_RETURN, 1, s1) /\
  d_init None s1 = Ok (SUCCESSFUL_RETURN, 0, s') /\ d_init None (d_new HST_IDENTITY (q_opts s1)) = Ok (SUCCESSFUL_RETURN, 1, s2) /\
  q_x s' = [(-3)%Q] /\ q_x s2 = [(-1)%Q].
Proof.
  assert (T : match d_init None (d_new HST_IDENTITY optDefault) with Ok (SUCCESSFUL_RETURN, 1, s1) => match d_init None s1, d_init None (d_new HST_IDENTITY (q_opts s1)) with
     | Ok (SUCCESSFUL_RETURN, 0, s'), Ok (SUCCESSFUL_RETURN, 1, s2) => q_x s' = [(-3)%Q] /\ q_x s2 = [(-1)%Q] | _, _ => False end | _ => False end) by (vm_compute; auto).
  destruct (d_init None (d_new HST_IDENTITY optDefault)) as [[[r1 k1] s1]| |]; try contradiction. destruct r1; try contradiction. destruct k1 as [|[| |]|]; try contradiction.
  destruct (d_init None s1) as [[[r k] s']| |] eqn:E2; try contradiction. destruct r; try contradiction. destruct k; try contradiction.
  destruct (d_init None (d_new HST_IDENTITY (q_opts s1))) as [[[r3 k3] s2]| |] eqn:E3; try contradiction. destruct r3; try contradiction. destruct k3 as [|[| |]|]; try contradiction.
  exists s1, s', s2. auto.
Qed.

(** an init that failed leaves the object uninitialised, so the next one does not
    reset it, and the type found for the old matrix is kept for the new one *)
Theorem C45_after_failure_refuted : exists o s1 s' s2 k, d_init (Some [(-1)%Q]) (d_new HST_UNKNOWN o) = Ok (RET_INIT_FAILED, 10, s1) /\
  d_init (Some [0%Q]) s1 = Ok (RET_INIT_FAILED_HOTSTART, 10, s') /\ d_init (Some [0%Q]) (d_new HST_UNKNOWN (q_opts s1)) = Ok (SUCCESSFUL_RETURN, k, s2).
Proof.
  exists (set_o_initialStatusBounds (N := QNum) ST_INACTIVE (set_o_enableFlippingBounds (N := QNum) false optDefault)).
  assert (T : match d_init (Some [(-1)%Q]) (d_new HST_UNKNOWN (set_o_initialStatusBounds (N := QNum) ST_INACTIVE (set_o_enableFlippingBounds (N := QNum) false optDefault))) with Ok (RET_INIT_FAILED, k1, s1) => k1 = 10 /\ match d_init (Some [0%Q]) s1, d_init (Some [0%Q]) (d_new HST_UNKNOWN (q_opts s1)) with
     | Ok (RET_INIT_FAILED_HOTSTART, k, s'), Ok (SUCCESSFUL_RETURN, _, s2) => k = 10 | _, _ => False end | _ => False end) by (vm_compute; auto).
  destruct (d_init (Some [(-1)%Q]) _) as [[[r1 k1] s1]| |]; try contradiction. destruct r1; try contradiction. destruct T as (-> & T).
  destruct (d_init (Some [0%Q]) s1) as [[[r k] s']| |] eqn:E2; [|contradiction..].
  destruct (d_init (Some [0%Q]) (d_new HST_UNKNOWN (q_opts s1))) as [[[r3 k3] s2]| |] eqn:E3; [|destruct r; contradiction..].
  destruct r; try contradiction. destruct r3; try contradiction. subst k. exists s1, s', s2, k3. auto.
Qed.

(** the hypotheses of C44_init and C44_hotstart are met with the default options *)
Example C44_ex : exists k s' k2 s2, d_init (Some [4%Q]) (d_new HST_UNKNOWN optDefault) = Ok (SUCCESSFUL_RETURN, k, s') /\
  hotstart (N := QNum) ce_junk d_nolimit 30 [2%Q] (Some [(-3)%Q]) (Some [1%Q]) 10 None s' = Ok (SUCCESSFUL_RETURN, k2, s2) /\
  d_val s' = [4%Q] /\ d_val s2 = [4%Q] /\ o_enableRegularisation (q_opts (d_new HST_UNKNOWN optDefault)) = false.
Proof.
  assert (T : match d_init (Some [4%Q]) (d_new HST_UNKNOWN optDefault) with Ok (SUCCESSFUL_RETURN, _, s') => match hotstart (N := QNum) ce_junk d_nolimit 30 [2%Q] (Some [(-3)%Q]) (Some [1%Q]) 10 None s' with Ok (SUCCESSFUL_RETURN, _, s2) => d_val s' = [4%Q] /\ d_val s2 = [4%Q] | _ => False end | _ => False end) by (vm_compute; auto).
  destruct (d_init _ _) as [[[r k] s']| |]; try contradiction. destruct r; try contradiction. exists k, s'.
  destruct (hotstart _ _ _ _ _ _ _ _ s') as [[[r2 k2] s2]| |] eqn:E2; try contradiction. destruct r2; try contradiction. exists k2, s2. split; [reflexivity|]. split; [reflexivity|]. split; [apply T|]. split; [apply T|reflexivity].
Qed.
(** and those of C45_again *)
Example C45_ex : qhist 1 [(cinit (-2)%Q (-1)%Q 1%Q 10, SUCCESSFUL_RETURN, 2)] s_a /\ isInitialised s_a = true /\
  exists k s2 s3, qexec (cinit 1%Q 0%Q 1%Q 10) s_a = Ok (SUCCESSFUL_RETURN, k, s2) /\ qexec (cinit 1%Q 0%Q 1%Q 10) (afresh (N := QNum) jk 1 s_a) = Ok (SUCCESSFUL_RETURN, k, s3) /\ q_x s2 = q_x s3.
Proof.
  split; [exact h_a|]. split; [vm_compute; reflexivity|].
  assert (T : match qexec (cinit 1%Q 0%Q 1%Q 10) s_a, qexec (cinit 1%Q 0%Q 1%Q 10) (afresh (N := QNum) jk 1 s_a) with Ok (r, k, s2), Ok (r', k', s3) => r = SUCCESSFUL_RETURN /\ r' = SUCCESSFUL_RETURN /\ k = k' /\ q_x s2 = q_x s3 | _, _ => False end) by (vm_compute; auto).
  destruct (qexec _ s_a) as [[[r k] s2]| |]; [|contradiction..]. destruct (qexec _ (afresh _ _ _)) as [[[r' k'] s3]| |]; [|contradiction..]. destruct T as (-> & -> & <- & T). exists k, s2, s3. auto.
Qed.
Print Assumptions C44_init.
Print Assumptions C45_history.
