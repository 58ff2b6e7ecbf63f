(** C46 for class QProblem: what a hotstart that runs out of budget leaves behind. *)
From Verif Require Import Base Types Num Options Indexlist SubjectTo Flipper Matrices LinAlg QProblemB QProblem QProblem2 QProblem3 QProblem4 QProblem5 QPFrame.
Local Open Scope Z_scope.

Section Budget.
Context {N : Num}.
Notation arr := (list N).
Notation qp := (qp N).
Variable junk : Z -> arr.
Variable cpu : Z -> bool.

(** the states from which hotstart refuses to start, QProblem.cpp:1491-1496 *)
Definition refuses (s : qp) : Prop :=
  q_status (p_b s) = QPS_NOTINITIALISED \/ q_status (p_b s) = QPS_PREPARINGAUXILIARYQP \/ q_status (p_b s) = QPS_PERFORMINGHOMOTOPY.
Definition accepts (s : qp) : Prop :=
  q_status (p_b s) = QPS_AUXILIARYQPSOLVED \/ q_status (p_b s) = QPS_HOMOTOPYQPSOLVED \/ q_status (p_b s) = QPS_SOLVED.
Lemma accepts_or_refuses s : accepts s \/ refuses s.
Proof. unfold accepts, refuses. destruct (q_status (p_b s)); tauto. Qed.

(** the ways in which solveQP ends *)
Inductive ends (nWSR performed : Z) (s0 : qp) (r : returnValue) (n : Z) (s : qp) : Prop :=
| Ebudget : kept s0 s -> r = RET_MAX_NWSR_REACHED -> q_infeasible (p_b s) = false ->
    (performed < nWSR -> q_status (p_b s) = QPS_HOMOTOPYQPSOLVED) ->
    (nWSR <= performed -> q_status (p_b s) = QPS_PERFORMINGHOMOTOPY) -> ends nWSR performed s0 r n s
| Esolved : kept s0 s -> r = SUCCESSFUL_RETURN -> q_infeasible (p_b s) = false -> q_status (p_b s) = QPS_SOLVED ->
    performed <= n < nWSR -> ends nWSR performed s0 r n s
| Einfeasible : kept s0 s -> r = RET_HOTSTART_STOPPED_INFEASIBILITY -> q_infeasible (p_b s) = true ->
    q_status (p_b s) = QPS_HOMOTOPYQPSOLVED -> performed <= n < nWSR -> ends nWSR performed s0 r n s
| Efailed : kept s0 s -> inner r -> r <> SUCCESSFUL_RETURN -> q_status (p_b s) = QPS_PERFORMINGHOMOTOPY -> ends nWSR performed s0 r n s.

Lemma ends_kept nWSR performed s0 r n s : ends nWSR performed s0 r n s -> kept s0 s.
Proof. intros []; auto. Qed.
Lemma ends_trans nWSR performed a b r n c : kept a b -> ends nWSR performed b r n c -> ends nWSR performed a r n c.
Proof.
  intros K H. destruct H as [K1 ? ? ? ?|K1 ? ? ? ?|K1 ? ? ? ?|K1 ? ? ?]; pose proof (kept_trans _ _ _ K K1).
  - eapply Ebudget; eauto.
  - eapply Esolved; eauto.
  - eapply Einfeasible; eauto.
  - eapply Efailed; eauto.
Qed.

Lemma rv_neq a b : negb (a =r? b) = true -> a <> b.
Proof. intros H E. apply rv_eqb_eq in E. rewrite E in H. discriminate. Qed.
Lemma rv_eq a b : negb (a =r? b) = false -> a = b.
Proof. intros H. apply rv_eqb_eq. destruct (a =r? b); auto. Qed.

Lemma iter_ends gn lbn ubn lbAn ubAn nWSR performed iter s0 s d p : performed <= iter < nWSR ->
  kept s0 s -> q_infeasible (p_b s) = false -> (performed < iter -> q_status (p_b s) = QPS_HOMOTOPYQPSOLVED) ->
  pc (p_solveIter junk cpu gn lbn ubn lbAn ubAn nWSR performed iter (s, d, p)) (fun c => match c with
    | Next (s', _, _) => kept s0 s' /\ q_infeasible (p_b s') = false /\ q_status (p_b s') = QPS_HOMOTOPYQPSOLVED
    | Brk (r, n, s') => ends nWSR performed s0 r n s'
    end).
Proof.
  intros Hi K If St. unfold p_solveIter.
  destruct (cpuExceeded cpu (iter - performed) (p_b s)) as [ex b] eqn:CE.
  assert (C : kept s0 (set_p_b b s) /\ q_infeasible b = false /\ q_status b = q_status (p_b s) /\ (ex = true -> performed < iter)).
  { unfold cpuExceeded in CE. destruct (Z.leb_spec (iter - performed) 0); inversion CE; subst; (split; [exact K|]); (split; [exact If|]); (split; [reflexivity|]).
    - discriminate.
    - intros _. lia. }
  destruct C as (K1 & I1 & S1 & X). clear CE. cbv zeta.
  destruct ex.
  { cbn [pc]. specialize (St (X eq_refl)). apply Ebudget; cbn [p_b set_p_b]; auto; try congruence. intros. specialize (X eq_refl). lia. }
  set (s1 := up_b (set_q_status QPS_PERFORMINGHOMOTOPY) (set_p_b b s)).
  assert (R0 : kinf s1 s1) by apply kinf_refl.
  assert (K0 : kept s0 s1) by exact K1.
  assert (P0 : q_status (p_b s1) = QPS_PERFORMINGHOMOTOPY) by reflexivity.
  assert (I0 : q_infeasible (p_b s1) = false) by exact I1.
  clearbody s1. clear K1 I1 S1 X b St K If s.
  assert (FAIL : forall r n s, kstat s1 s -> inner r -> r <> SUCCESSFUL_RETURN -> ends nWSR performed s0 r n s).
  { intros r n s [K S] Ir Nr. apply Efailed; auto; [eapply kept_trans; eauto|congruence]. }
  apply pc_any. intros [[d' bCz] bBz].
  eapply pc_bind; [apply p_stepDirection_frame, R0|]. intros [[r p'] s2] [K2 Ir2].
  destruct (negb (r =r? SUCCESSFUL_RETURN)) eqn:E2; [cbn [pc]; apply FAIL; [apply K2|auto|apply rv_neq, E2]|].
  eapply pc_bind; [apply perfstep, K2|]. intros [k s3] K3.
  apply pc_any. intro len. destruct (len <=' _).
  { cbn [pc]. destruct K3 as [[K3 S3] I3]. apply Esolved; cbn; auto; [exact (kept_trans _ _ _ K0 K3)|congruence]. }
  eapply pc_bind; [apply change, K3|]. intros [r4 s4] (K4 & I4 & F4). cbn [fst snd] in *.
  destruct (negb (r4 =r? SUCCESSFUL_RETURN)) eqn:E4.
  { destruct (q_infeasible (p_b s4)).
    - cbn [pc]. destruct K4 as [K4 S4]. apply Einfeasible; cbn; auto. exact (kept_trans _ _ _ K0 K4).
    - destruct (q_unbounded (p_b s4)); cbn [pc]; (apply FAIL; [exact K4| |]); try exact I; try discriminate; [exact I4|apply rv_neq, E4]. }
  apply rv_eq in E4. specialize (F4 E4).
  set (s5 := up_b _ s4). assert (K5 : kinf s1 s5) by (split; [exact K4|exact F4]). clearbody s5. clear K4 F4 I4 E4 s4.
  unfold p_afterChange. cbv zeta.
  eapply pc_bind with (P := fun '(r, s) => inner r /\ (if r =r? SUCCESSFUL_RETURN then kept s0 s /\ q_infeasible (p_b s) = false /\ q_status (p_b s) = QPS_HOMOTOPYQPSOLVED
      else kstat s1 s)).
  - eapply pc_bind with (P := upd_inf s1); [destruct (_ && _); [apply cproj, K5|split; [exact K5|exact I]]|].
    intros [r6 s6] [K6 I6]. cbn [fst snd] in *. destruct (negb (r6 =r? SUCCESSFUL_RETURN)) eqn:E6.
    { cbn [pc]. split; [exact I6|]. destruct (r6 =r? SUCCESSFUL_RETURN); [discriminate E6|apply K6]. }
    set (s7 := up_b _ s6).
    assert (K7 : kept s0 s7) by (exact (kept_trans _ _ _ K0 (proj1 (proj1 K6)))).
    assert (S7 : q_status (p_b s7) = QPS_HOMOTOPYQPSOLVED) by reflexivity.
    assert (I7 : q_infeasible (p_b s7) = false) by (change (q_infeasible (p_b s6) = false); destruct K6; congruence).
    clearbody s7. clear K6 E6.
    assert (R7 : kinf s7 s7) by apply kinf_refl.
    eapply pc_bind with (P := kinf s7).
    + destruct (_ && _); [apply ramping, R7|]. destruct (_ && _); [apply drift, R7|exact R7].
    + intros s8 [[K8 S8] I8]. cbn [pc rv_eqb]. split; [exact I|]. split; [eapply kept_trans; eauto|]. split; congruence.
  - intros [r9 s9] [I9 F9]. destruct (r9 =r? SUCCESSFUL_RETURN) eqn:E9; cbn [negb pc]; [exact F9|].
    apply FAIL; auto. intros ->. discriminate E9.
Qed.

Lemma solveQP_ends gn lbn ubn lbAn ubAn nWSR performed s :
  accepts s -> pc (p_solveQP junk cpu gn lbn ubn lbAn ubAn nWSR performed s) (fun '(r, n, s') => ends nWSR performed s r n s').
Proof.
  intros A. unfold p_solveQP.
  set (body := bind _ _).
  assert (B : pc body (fun '(r, n, s') => ends nWSR performed s r n s')).
  2: { destruct A as [-> | [-> | ->]]; exact B. }
  subst body. set (s1 := up_b _ s).
  assert (K0 : kept s s1) by (exact (kept_refl s)).
  assert (P0 : q_status (p_b s1) = QPS_PERFORMINGHOMOTOPY) by reflexivity.
  assert (R1 : kinf s1 s1) by apply kinf_refl. clearbody s1.
  eapply pc_bind; [apply activities, R1|]. intros [r s2] (K2 & I2 & _). cbn [fst snd] in *. destruct (negb _) eqn:E.
  { cbn [pc]. destruct K2 as [K2 S2]. apply Efailed; auto; [eapply kept_trans; eauto|apply rv_neq, E|congruence]. }
  cbv zeta. set (s3 := up_b _ s2).
  assert (K3 : kept s s3) by (exact (kept_trans _ _ _ K0 (proj1 K2))).
  assert (S3 : q_status (p_b s3) = QPS_PERFORMINGHOMOTOPY) by (transitivity (q_status (p_b s1)); [apply K2|exact P0]).
  assert (I3 : q_infeasible (p_b s3) = false) by reflexivity. clearbody s3.
  eapply pc_bind; [apply (pc_forb_up (fun i '(s', _, _) => kept s s' /\ q_infeasible (p_b s') = false /\
     (performed < i -> q_status (p_b s') = QPS_HOMOTOPYQPSOLVED) /\ (i <= performed -> q_status (p_b s') = QPS_PERFORMINGHOMOTOPY))
     (fun '(r, n, s') => ends nWSR performed s r n s'))|].
  - split; [exact K3|]. split; [exact I3|]. split; [lia|auto].
  - intros i [[s4 d] p] Hi (K4 & I4 & S4 & _). eapply pc_mono; [apply iter_ends with (s0 := s); auto|].
    intros [[[s5 d5] p5]|[[r5 n5] s5]] C; [|exact C]. destruct C as (K5 & I5 & S5). repeat split; auto; try apply K5; lia.
  - intros [[[s4 d] p]|[[r4 n4] s4]] C; cbn [pc]; [|exact C]. destruct C as (K4 & I4 & S4 & S4').
    apply Ebudget; auto; intros; [apply S4|apply S4']; lia.
Qed.

Lemma solveQP_refuses gn lbn ubn lbAn ubAn nWSR performed s : refuses s ->
  p_solveQP junk cpu gn lbn ubn lbAn ubAn nWSR performed s = Ok (RET_HOTSTART_FAILED_AS_QP_NOT_INITIALISED, nWSR, s).
Proof. unfold p_solveQP. intros [-> | [-> | ->]]; reflexivity. Qed.

Lemma solveRQP_refuses gn lbn ubn lbAn ubAn nWSR performed s : refuses s ->
  p_solveRegularisedQP junk cpu gn lbn ubn lbAn ubAn nWSR performed s = Ok (RET_HOTSTART_FAILED_AS_QP_NOT_INITIALISED, nWSR, s).
Proof. intros R. unfold p_solveRegularisedQP. rewrite !solveQP_refuses by exact R. cbn [bind]. destruct (negb _); reflexivity. Qed.

Lemma solveRQP_ends gn lbn ubn lbAn ubAn nWSR performed s :
  accepts s -> pc (p_solveRegularisedQP junk cpu gn lbn ubn lbAn ubAn nWSR performed s) (fun '(r, n, s') => ends nWSR performed s r n s').
Proof.
  intros A. unfold p_solveRegularisedQP. destruct (negb _); [apply solveQP_ends, A|].
  eapply pc_bind; [apply solveQP_ends, A|]. intros [[r n] s1] E1. destruct (negb _) eqn:X; [exact E1|].
  apply rv_eq in X. subst r.
  assert (E2 : kept s s1 /\ q_infeasible (p_b s1) = false /\ q_status (p_b s1) = QPS_SOLVED /\ performed <= n < nWSR).
  { destruct E1 as [? ? ? ? ?|? ? ? ? ?|? ? ? ? ?|? Ir Nr ?]; try discriminate; auto. exfalso. auto. }
  clear E1.
  eapply pc_bind; [apply (pc_forb (fun '(t, s', _) => kept s s' /\ q_infeasible (p_b s') = false /\ q_status (p_b s') = QPS_SOLVED /\ performed <= t < nWSR)
    (fun '(r, n, s') => ends nWSR performed s r n s'))|].
  - exact E2.
  - clear E2 n s1. intros i [[t s1] gM] (K1 & I1 & S1 & T1). apply pc_any. intro gM'.
    eapply pc_bind; [apply solveQP_ends; unfold accepts; auto|]. intros [[r n] s2] E2.
    destruct (negb _) eqn:X; cbn [pc].
    + apply ends_trans with (a := s) in E2; auto. destruct E2 as [? ? ? S ?|? ? ? ? ?|? ? ? ? ?|? Ir Nr ?].
      * apply Ebudget; auto; intros; [apply S; lia|lia].
      * apply rv_neq in X. contradiction.
      * apply Einfeasible; auto. lia.
      * apply Efailed; auto.
    + apply rv_eq in X. subst r. destruct E2 as [? ? ? ? ?|K2 ? ? ? ?|? ? ? ? ?|? Ir Nr ?]; try discriminate; [|contradiction].
      split; [eapply kept_trans; eauto|]. split; auto. split; auto. lia.
  - intros [[[t s2] gM]|[[r n2] s2]] C; [|exact C]. apply pc_any. intro g. cbn [pc].
    destruct C as (K & I1 & S1 & T1). apply Esolved; auto.
Qed.

(** what hotstart returns when it started from an accepted state *)
Definition verdict (nWSR : Z) (s0 : qp) (x : returnValue * Z * qp) : Prop :=
  let '(r, n, s') := x in
  kept s0 s' /\
  r <> RET_HOTSTART_FAILED_AS_QP_NOT_INITIALISED /\
  (r = RET_MAX_NWSR_REACHED -> q_infeasible (p_b s') = false /\
     (0 < nWSR -> q_status (p_b s') = QPS_HOMOTOPYQPSOLVED) /\ (nWSR <= 0 -> q_status (p_b s') = QPS_PERFORMINGHOMOTOPY)).


Lemma stuck fuel gn lbn ubn lbAn ubAn nWSR performed far f s0 s : kept s0 s -> refuses s -> q_infeasible (p_b s) = true ->
  pc (p_farLoop junk cpu fuel gn lbn ubn lbAn ubAn nWSR performed far f s) (fun '(r, _, s') =>
    kept s0 s' /\ r = RET_HOTSTART_STOPPED_INFEASIBILITY).
Proof.
  revert performed far f s. induction fuel as [|fuel IH]; intros performed far f s K R I1; [exact I|].
  cbn [p_farLoop]. destruct f as [[[lf uf] lAf] uAf]. rewrite solveRQP_refuses by exact R. cbn [bind]. cbv zeta. rewrite I1.
  destruct (_ >=' _); [cbn [pc]; auto|]. apply pc_any. intro f. apply IH; auto.
Qed.

Lemma farLoop_verdict fuel gn lbn ubn lbAn ubAn nWSR performed far f s0 s : kept s0 s ->
  accepts s -> 0 <= performed -> (performed < nWSR \/ performed = 0) ->
  pc (p_farLoop junk cpu fuel gn lbn ubn lbAn ubAn nWSR performed far f s) (verdict nWSR s0).
Proof.
  revert performed far f s. induction fuel as [|fuel IH]; intros performed far f s K A P0 P1; [exact I|].
  cbn [p_farLoop]. destruct f as [[[lf uf] lAf] uAf].
  eapply pc_bind; [apply solveRQP_ends, A|]. intros [[r n] s1] E. cbv zeta.
  pose proof (kept_trans _ _ _ K (ends_kept _ _ _ _ _ _ E)) as K'.
  destruct E as [K1 -> I1 S1 S1'|K1 -> I1 S1 T1|K1 -> I1 S1 T1|K1 Ir Nr S1].
  - rewrite I1. destruct P1 as [P1|P1].
    + rewrite (S1 P1). cbn [is_qps pc]. split; [exact K'|]. split; [discriminate|]. intros _. split; auto. split; [auto|lia].
    + subst performed. destruct (Z.lt_ge_cases 0 nWSR) as [L|L].
      * rewrite (S1 L). cbn [is_qps pc]. split; [exact K'|]. split; [discriminate|]. intros _. auto.
      * rewrite (S1' L). cbn [is_qps pc]. split; [exact K'|]. split; [discriminate|]. intros _. auto.
  - rewrite I1, S1. cbn [is_qps]. apply pc_any. intro k. destruct (k =? 0); [cbn [pc]; split; [exact K'|split; discriminate]|].
    destruct (_ >=' _); [cbn [pc]; split; [exact K'|split; discriminate]|]. apply pc_any. intro f.
    apply IH; [exact K'|unfold accepts; cbn; auto|lia|lia].
  - rewrite I1. destruct (_ >=' _); [cbn [pc]; split; [exact K'|split; discriminate]|]. apply pc_any. intro f.
    apply IH; [exact K'|unfold accepts; cbn; auto|lia|lia].
  - destruct (q_infeasible (p_b s1)) eqn:I1.
    + destruct (_ >=' _); [cbn [pc]; split; [exact K'|split; discriminate]|]. apply pc_any. intro f.
      eapply pc_mono; [apply stuck with (s0 := s0); [exact K'|right; right; exact S1|exact I1]|].
      intros [[r' n'] s'] [K2 ->]. split; [exact K2|split; discriminate].
    + rewrite S1. cbn [is_qps pc]. split; [exact K'|]. split; [intros ->; exact Ir|intros ->; destruct Ir].
Qed.

Lemma initial_cholesky (s : qp) : pc (p_setupInitialCholesky s) (fun '(r, s') =>
  inner r /\ q_status (p_b s') = q_status (p_b s) /\ (r = SUCCESSFUL_RETURN -> q_haveChol (p_b s') = true)).
Proof.
  unfold p_setupInitialCholesky. apply pc_any. intro fv. cbv zeta.
  assert (REG : forall s1 : qp, pc (' (r, b) <- regulariseHessian (p_b s1);; Ok (r, set_p_b b s1)) (fun '(_, s') => q_status (p_b (s' : qp)) = q_status (p_b s1))).
  { intros s1. unfold regulariseHessian. pwalk; reflexivity. }
  assert (PRO : forall s1 : qp, pc (computeProjectedCholesky s1) (fun '(r, s') => inner r /\ q_status (p_b s') = q_status (p_b s1))).
  { intros s1. eapply pc_mono; [apply cproj, kinf_refl|]. intros [r s'] (((K & S) & _) & Ir). auto. }
  assert (FIN : forall r (s1 : qp), q_status (p_b s1) = q_status (p_b s) ->
    pc (if negb (r =r? SUCCESSFUL_RETURN) then Ok (RET_INIT_FAILED_CHOLESKY, s1) else Ok (SUCCESSFUL_RETURN, up_b (set_q_haveChol true) s1))
      (fun '(r, s') => inner r /\ q_status (p_b s') = q_status (p_b s) /\ (r = SUCCESSFUL_RETURN -> q_haveChol (p_b s') = true))).
  { intros r s1 E. destruct (negb _); cbn [pc]; (split; [exact I|]); (split; [exact E|]); intros; [discriminate|reflexivity]. }
  eapply pc_bind with (P := fun '(_, s') => q_status (p_b s') = q_status (p_b s)); [destruct (_ && _); [apply REG|reflexivity]|].
  intros [r1 s1] E1. destruct (negb _); [cbn [pc]; repeat split; [exact E1|discriminate]|].
  eapply pc_bind; [apply PRO|]. intros [r2 s2] [_ E2]. destruct (r2 =r? RET_HESSIAN_NOT_SPD).
  - eapply pc_bind; [apply REG|]. intros [r3 s3] E3. destruct (negb _); [cbn [pc]; repeat split; [congruence|discriminate]|].
    eapply pc_bind; [apply PRO|]. intros [r4 s4] [_ E4]. apply FIN. congruence.
  - apply FIN. congruence.
Qed.

(** ** Hotstart *)
Definition guessed {A} (gB gC : option A) : Prop := gB <> None \/ gC <> None.
Definition hot_post (nWSR : Z) (x : returnValue * Z * qp) : Prop :=
  let '(r, n, s') := x in
  r <> RET_HOTSTART_FAILED_AS_QP_NOT_INITIALISED /\
  (r = RET_MAX_NWSR_REACHED -> q_infeasible (p_b s') = false /\ q_haveChol (p_b s') = true /\
     (0 < nWSR -> q_status (p_b s') = QPS_HOMOTOPYQPSOLVED) /\ (nWSR <= 0 -> q_status (p_b s') = QPS_PERFORMINGHOMOTOPY)).

Lemma hotstart_post fuel gn lbn ubn lbAn ubAn nWSR gB gC s : accepts s \/ guessed gB gC ->
  pc (p_hotstart junk cpu fuel gn lbn ubn lbAn ubAn nWSR gB gC s) (hot_post nWSR).
Proof.
  intros A. unfold p_hotstart. destruct (_ =? 0); [cbn [pc]; split; discriminate|].
  eapply pc_bind with (P := fun '(r, s') => inner r /\ (r = SUCCESSFUL_RETURN -> accepts s')).
  { assert (G : pc (' (r, s1) <- p_setupAuxiliaryQP junk gB gC s;;
       (if negb (r =r? SUCCESSFUL_RETURN) then Ok (RET_SETUP_AUXILIARYQP_FAILED, s1)
        else Ok (SUCCESSFUL_RETURN, up_b (set_q_status QPS_AUXILIARYQPSOLVED) s1))) (fun '(r, s') => inner r /\ (r = SUCCESSFUL_RETURN -> accepts s'))).
    { apply pc_any. intros [r s1]. destruct (negb _); cbn [pc]; (split; [exact I|]); [discriminate|]. intros _. left. reflexivity. }
    destruct gB, gC; try exact G. cbn [pc]. split; [exact I|]. intros _. destruct A as [A|[A|A]]; [exact A|congruence|congruence]. }
  intros [r s1] [Ir Ac]. destruct (negb _) eqn:E; [cbn [pc]; split; intros ->; destruct Ir|]. apply rv_eq in E. specialize (Ac E). clear r E Ir.
  apply pc_any. intro r. destruct (negb _); [cbn [pc]; split; discriminate|].
  cbv zeta. set (s2 := up_b _ s1). assert (A2 : accepts s2) by exact Ac. clearbody s2.
  eapply pc_bind with (P := fun '(r, s') => inner r /\ (r = SUCCESSFUL_RETURN -> accepts s' /\ q_haveChol (p_b s') = true)).
  { destruct (q_haveChol (p_b s2)) eqn:HC; [cbn [pc]; split; [exact I|auto]|].
    eapply pc_mono; [apply initial_cholesky|]. intros [r' s3] (Ir & S3 & C3). split; [exact Ir|]. intros E. split; [|auto].
    unfold accepts. rewrite S3. exact A2. }
  intros [r' s3] [Ir F]. destruct (negb _) eqn:E; [cbn [pc]; split; intros ->; destruct Ir|]. apply rv_eq in E. destruct (F E) as [A3 C3]. clear F E Ir.
  assert (V : forall x, verdict nWSR s3 x -> hot_post nWSR x).
  { intros [[r4 n4] s4] (K & V1 & V2). split; [exact V1|]. intros E. destruct (V2 E) as (I4 & S4 & S4').
    split; [exact I4|]. split; [|auto]. transitivity (q_haveChol (p_b s3)); [apply K|exact C3]. }
  destruct (negb _).
  { eapply pc_mono; [apply solveRQP_ends, A3|]. intros [[r4 n4] s4] H. apply V. split; [eapply ends_kept; eauto|].
    destruct H as [? -> ? ? ?|? -> ? ? ?|? -> ? ? ?|? Ir ? ?]; [split; [discriminate|auto]| | |]; (split; [|]).
    all: try discriminate. all: intros ->; destruct Ir. }
  do 3 (apply pc_any; intro). eapply pc_mono; [apply farLoop_verdict with (s0 := s3); auto; [apply kept_refl|lia]|exact V].
Qed.

(** *** C46 *)
(** A hotstart (with or without guess, on whatever object) that was allowed at
    least one working set change and reports that its budget is used up leaves an
    object from which the next hotstart starts.  The next hotstart never
    complains that the QP is not initialised, and without a guess and with
    consistent limits it goes straight to the homotopy from the iterate reached:
    only its call counter is different. *)
Theorem C46_budget_QProblem fuel gn lbn ubn lbAn ubAn nWSR gB gC s n s' : 1 <= nWSR ->
  p_hotstart junk cpu fuel gn lbn ubn lbAn ubAn nWSR gB gC s = Ok (RET_MAX_NWSR_REACHED, n, s') ->
  q_status (p_b s') = QPS_HOMOTOPYQPSOLVED /\ q_infeasible (p_b s') = false /\ q_haveChol (p_b s') = true.
Proof.
  intros L H.
  assert (X : accepts s \/ guessed gB gC \/ (refuses s /\ gB = None /\ gC = None)).
  { destruct (accepts_or_refuses s); auto. unfold guessed. destruct gB, gC; auto; right; left; [left|left|right]; discriminate. }
  rewrite <- or_assoc in X. destruct X as [X|(R & -> & ->)].
  - pose proof (pc_eq _ _ _ (hotstart_post fuel gn lbn ubn lbAn ubAn nWSR gB gC s X) H) as [_ P].
    destruct (P eq_refl) as (I1 & C1 & S1 & _). auto with zarith.
  - exfalso.
    assert (Y : pc (p_hotstart junk cpu fuel gn lbn ubn lbAn ubAn nWSR None None s) (fun '(r, _, _) => r <> RET_MAX_NWSR_REACHED)).
    { unfold p_hotstart. destruct (_ =? 0); [discriminate|]. cbn [bind rv_eqb negb]. change (negb (SUCCESSFUL_RETURN =r? SUCCESSFUL_RETURN)) with false. cbv iota.
      apply pc_any. intro r. destruct (negb _); [discriminate|]. cbv zeta. set (s2 := up_b _ s). assert (R2 : refuses s2) by exact R. clearbody s2.
      eapply pc_bind with (P := fun '(r, s') => inner r /\ refuses s').
      { destruct (q_haveChol (p_b s2)); [split; [exact I|exact R2]|]. eapply pc_mono; [apply initial_cholesky|].
        intros [r' s3] (Ir & S3 & _). split; [exact Ir|]. unfold refuses. rewrite S3. exact R2. }
      intros [r' s3] [Ir R3]. destruct (negb (r' =r? _)); [cbn [pc]; intros ->; exact Ir|].
      destruct (negb _); [rewrite solveRQP_refuses by exact R3; discriminate|].
      do 3 (apply pc_any; intro). destruct fuel; [exact I|]. cbn [p_farLoop]. destruct x1 as [[[lf uf] lAf] uAf].
      rewrite solveRQP_refuses by exact R3. cbn [bind]. cbv zeta. destruct (q_infeasible (p_b s3)) eqn:I3.
      - destruct (_ >=' _); [discriminate|]. apply pc_any. intro f.
        eapply pc_mono; [apply stuck with (s0 := s3); [exact (kept_refl s3)|exact R3|exact I3]|]. intros [[r5 n5] s5] [_ ->]. discriminate.
      - destruct (is_qps _ _) eqn:Q; [|discriminate]. exfalso. unfold refuses in R3. destruct R3 as [R3|[R3|R3]]; rewrite R3 in Q; discriminate. }
    exact (pc_eq _ _ _ Y H eq_refl).
Qed.

Theorem C46_accepted_QProblem fuel gn lbn ubn lbAn ubAn nWSR gB gC s n s' : 1 <= nWSR ->
  p_hotstart junk cpu fuel gn lbn ubn lbAn ubAn nWSR gB gC s = Ok (RET_MAX_NWSR_REACHED, n, s') ->
  forall fuel' gn' lb ub lbA ubA nWSR' gB' gC' r n' s'',
    p_hotstart junk cpu fuel' gn' lb ub lbA ubA nWSR' gB' gC' s' = Ok (r, n', s'') -> r <> RET_HOTSTART_FAILED_AS_QP_NOT_INITIALISED.
Proof.
  intros L H fuel' gn' lb ub lbA ubA nWSR' gB' gC' r n' s'' H'. destruct (C46_budget_QProblem _ _ _ _ _ _ _ _ _ _ _ _ L H) as (S & _).
  apply (pc_eq _ _ _ (hotstart_post fuel' gn' lb ub lbA ubA nWSR' gB' gC' s' (or_introl (or_intror (or_introl S)))) H').
Qed.

Theorem C46_continues_QProblem fuel gn lbn ubn lbAn ubAn nWSR gB gC s n s' : 1 <= nWSR ->
  p_hotstart junk cpu fuel gn lbn ubn lbAn ubAn nWSR gB gC s = Ok (RET_MAX_NWSR_REACHED, n, s') ->
  forall fuel' gn' lb ub lbA ubA nWSR', pV s' <> 0 -> o_enableFarBounds (p_opts s') = false ->
    p_areBoundsConsistent lb ub lbA ubA s' = Ok SUCCESSFUL_RETURN ->
    p_hotstart junk cpu fuel' gn' lb ub lbA ubA nWSR' None None s' =
    p_solveRegularisedQP junk cpu gn' lb ub lbA ubA nWSR' 0 (up_b (fun b => set_q_count (q_count b + 1) b) s').
Proof.
  intros L H fuel' gn' lb ub lbA ubA nWSR' V F B. destruct (C46_budget_QProblem _ _ _ _ _ _ _ _ _ _ _ _ L H) as (_ & _ & C).
  unfold p_hotstart. destruct (Z.eqb_spec (pV s') 0); [contradiction|]. cbn [bind]. change (negb (SUCCESSFUL_RETURN =r? SUCCESSFUL_RETURN)) with false. cbv iota.
  rewrite B. cbn [bind]. change (negb (SUCCESSFUL_RETURN =r? SUCCESSFUL_RETURN)) with false. cbv iota zeta.
  change (q_haveChol (p_b (up_b (fun b => set_q_count (q_count b + 1) b) s'))) with (q_haveChol (p_b s')). rewrite C. cbn [bind].
  change (negb (SUCCESSFUL_RETURN =r? SUCCESSFUL_RETURN)) with false. cbv iota.
  change (p_opts (up_b (fun b => set_q_count (q_count b + 1) b) s')) with (p_opts s'). rewrite F. reflexivity.
Qed.

(** A budget of zero is different: the status is changed before the homotopy
    loop (QProblem.cpp:1504), so the object is left in the middle of a homotopy
    and refuses every further hotstart without a guess. *)
Theorem C46_zero_budget_QProblem fuel gn lbn ubn lbAn ubAn nWSR gB gC s n s' : nWSR <= 0 -> accepts s \/ guessed gB gC ->
  p_hotstart junk cpu fuel gn lbn ubn lbAn ubAn nWSR gB gC s = Ok (RET_MAX_NWSR_REACHED, n, s') ->
  forall fuel' gn' lb ub lbA ubA nWSR' r n' s'', pV s' <> 0 ->
    p_areBoundsConsistent lb ub lbA ubA s' = Ok SUCCESSFUL_RETURN ->
    p_hotstart junk cpu fuel' gn' lb ub lbA ubA nWSR' None None s' = Ok (r, n', s'') ->
    r = RET_HOTSTART_FAILED_AS_QP_NOT_INITIALISED.
Proof.
  intros L A H fuel' gn' lb ub lbA ubA nWSR' r n' s'' V B H'.
  pose proof (pc_eq _ _ _ (hotstart_post fuel gn lbn ubn lbAn ubAn nWSR gB gC s A) H) as [_ P].
  destruct (P eq_refl) as (I1 & C1 & _ & S1). specialize (S1 L). clear P H A.
  revert H'. unfold p_hotstart. destruct (Z.eqb_spec (pV s') 0); [contradiction|]. cbn [bind]. change (negb (SUCCESSFUL_RETURN =r? SUCCESSFUL_RETURN)) with false. cbv iota.
  rewrite B. cbn [bind]. change (negb (SUCCESSFUL_RETURN =r? SUCCESSFUL_RETURN)) with false. cbv iota zeta.
  set (s2 := up_b _ s'). change (q_haveChol (p_b s')) with (q_haveChol (p_b s2)) in C1. rewrite C1. cbn [bind].
  change (negb (SUCCESSFUL_RETURN =r? SUCCESSFUL_RETURN)) with false. cbv iota.
  assert (R2 : refuses s2) by (right; right; exact S1). change (q_infeasible (p_b s2) = false) in I1. change (q_status (p_b s2) = QPS_PERFORMINGHOMOTOPY) in S1. clearbody s2.
  destruct (negb _); [rewrite solveRQP_refuses by exact R2; intros X; inversion X; reflexivity|].
  intros X. match type of X with ?m = _ => assert (Y : pc m (fun '(r, _, _) => r = RET_HOTSTART_FAILED_AS_QP_NOT_INITIALISED)) end.
  { do 3 (apply pc_any; intro). destruct fuel'; [exact I|]. cbn [p_farLoop]. destruct x1 as [[[lf uf] lAf] uAf].
    rewrite solveRQP_refuses by exact R2. cbn [bind]. cbv zeta. rewrite I1, S1. cbn [is_qps pc]. reflexivity. }
  exact (pc_eq _ _ _ Y X).
Qed.

(** The same for init. *)
Theorem C46_init_QProblem fuel h g A lb ub lbA ubA nWSR xOpt yOpt gB gC Rin s n s' :
  p_init junk cpu fuel h g A lb ub lbA ubA nWSR xOpt yOpt gB gC Rin s = Ok (RET_MAX_NWSR_REACHED, n, s') ->
  q_infeasible (p_b s') = false /\ q_haveChol (p_b s') = true /\
  q_status (p_b s') = if 1 <=? nWSR then QPS_HOMOTOPYQPSOLVED else QPS_PERFORMINGHOMOTOPY.
Proof.
  intros H. revert H. match goal with |- ?m = _ -> _ => intros H; assert (Y : pc m (fun '(r, n, s') => r = RET_MAX_NWSR_REACHED ->
     q_infeasible (p_b s') = false /\ q_haveChol (p_b s') = true /\
     q_status (p_b s') = if 1 <=? nWSR then QPS_HOMOTOPYQPSOLVED else QPS_PERFORMINGHOMOTOPY)) end.
  2: { exact (pc_eq _ _ _ Y H eq_refl). }
  clear H. unfold p_init. destruct (_ =? 0); [discriminate|]. apply pc_any. intro s1. apply pc_any. intro b1.
  destruct (negb b1); [discriminate|]. apply pc_any. intro b2. destruct (negb b2); [discriminate|]. cbv zeta.
  destruct (_ && _); [discriminate|]. destruct (_ && _); [discriminate|].
  apply pc_any. intros [r2 s2]. destruct (negb _); [discriminate|]. unfold p_solveInitialQP.
  eapply pc_bind with (P := fun '(r, _, s3) => inner r /\ (r = SUCCESSFUL_RETURN -> accepts s3)).
  { unfold p_prepareInitial. cbv zeta.
    repeat (match goal with
            | |- pc (Ok _) _ => cbn [pc]; split; [exact I|discriminate]
            | |- pc (if negb _ then _ else _) _ => destruct (negb _)
            | |- pc (bind ?m _) _ => lazymatch m with context [p_performRamping] => fail | _ => apply pc_any; intro end
            | |- pc (let '_ := ?x in _) _ => destruct x
            end; cbv beta).
    set (s9 := up_b (set_q_status QPS_AUXILIARYQPSOLVED) _). assert (S9 : q_status (p_b s9) = QPS_AUXILIARYQPSOLVED) by reflexivity. clearbody s9.
    eapply pc_bind with (P := kinf s9).
    - destruct (o_enableRamping _); [apply ramping, kinf_refl|apply kinf_refl].
    - intros s10 K. cbn [pc]. split; [exact I|]. intros _. left. destruct K as [[_ K] _]. congruence. }
  intros [[r3 o3] s3] [Ir Ac]. destruct (negb _) eqn:E; [cbn [pc]; intros ->; destruct Ir|]. apply rv_eq in E. specialize (Ac E).
  eapply pc_bind; [apply hotstart_post; left; exact Ac|]. intros [[r4 n4] s4] [_ P].
  destruct (q_infeasible (p_b s4)) eqn:Q; [discriminate|]. destruct (q_unbounded (p_b s4)); [discriminate|]. destruct (_ && _); [discriminate|].
  cbn [pc]. intros ->. destruct (P eq_refl) as (I4 & C4 & S4 & S4'). split; [exact Q|]. split; [exact C4|].
  destruct (Z.leb_spec 1 nWSR); [apply S4|apply S4']; lia.
Qed.
End Budget.

(** ** A run over the rationals: minimise x1^2/2 + x2^2/2 - 3 x1 - 5 x2 subject to
    -10 <= x <= 10 and -10 <= x <= 1 as constraints, without far bounds and ramping *)
From Verif Require Import PropAux.
From Coq Require Import QArith.
Local Open Scope Z_scope.
Definition nocpu (_ : Z) : bool := false.
Definition q_off : options QNum := set_o_enableFarBounds (N := QNum) false (set_o_enableRamping (N := QNum) false optDefault).
Definition q_init (n m : Z) (H g A lb ub lbA ubA : list Q) (k : Z) (o : options QNum) : res (returnValue * Z * qp QNum) :=
  p_init (N := QNum) ce_junk nocpu 20 (HArr (N := QNum) (Some H)) (Some g) (AArr (N := QNum) (Some A)) (Some lb) (Some ub) (Some lbA) (Some ubA)
    k None None None None None (p_new (N := QNum) ce_junk n m HST_UNKNOWN o).
Definition q_hot (g : list Q) (lb ub lbA ubA : option (list Q)) (k : Z) (s : qp QNum) : res (returnValue * Z * qp QNum) :=
  p_hotstart (N := QNum) ce_junk nocpu 20 g lb ub lbA ubA k None None s.
Definition q_box : res (returnValue * Z * qp QNum) :=
  q_init 2 2 [1;0;0;1]%Q [-3;-5]%Q [1;0;0;1]%Q [-10;-10]%Q [10;10]%Q [-10;-10]%Q [1;1]%Q 10 q_off.
Definition box_hot (k : Z) : qp QNum -> res (returnValue * Z * qp QNum) :=
  q_hot [3;5]%Q (Some [-10;-10]%Q) (Some [10;10]%Q) (Some [-10;-10]%Q) (Some [1;1]%Q) k.

Theorem C46_refuted_QProblem : exists k1 s1 k2 s2 k3 s3,
  q_box = Ok (SUCCESSFUL_RETURN, k1, s1) /\ q_status (p_b s1) = QPS_SOLVED /\
  box_hot 0 s1 = Ok (RET_MAX_NWSR_REACHED, k2, s2) /\
  box_hot 10 s2 = Ok (RET_HOTSTART_FAILED_AS_QP_NOT_INITIALISED, k3, s3).
Proof.
  assert (T : match q_box with
              | Ok (SUCCESSFUL_RETURN, k1, s1) => q_status (p_b s1) = QPS_SOLVED /\
                  match box_hot 0 s1 with
                  | Ok (RET_MAX_NWSR_REACHED, k2, s2) => match box_hot 10 s2 with Ok (RET_HOTSTART_FAILED_AS_QP_NOT_INITIALISED, k3, s3) => True | _ => False end
                  | _ => False
                  end
              | _ => False
              end) by (vm_compute; auto).
  destruct q_box as [[[[] k1] s1]| |]; try contradiction. destruct T as [S1 T]. exists k1, s1.
  destruct (box_hot 0 s1) as [[[[] k2] s2]| |]; try contradiction. exists k2, s2.
  destruct (box_hot 10 s2) as [[[[] k3] s3]| |]; try contradiction. exists k3, s3. auto.
Qed.
(** with a positive budget: stopped after one step, then continued to the solution *)
Example C46_ex : exists k1 s1 s2 k3 s3,
  q_box = Ok (SUCCESSFUL_RETURN, k1, s1) /\ accepts s1 /\
  box_hot 1 s1 = Ok (RET_MAX_NWSR_REACHED, 1, s2) /\ accepts s2 /\ pV s2 <> 0 /\
  p_areBoundsConsistent (N := QNum) (Some [-10;-10]%Q) (Some [10;10]%Q) (Some [-10;-10]%Q) (Some [1;1]%Q) s2 = Ok SUCCESSFUL_RETURN /\
  box_hot 10 s2 = Ok (SUCCESSFUL_RETURN, k3, s3) /\ q_status (p_b s3) = QPS_SOLVED /\ map Qred (q_x (p_b s3)) = [-3;-5]%Q.
Proof.
  assert (T : match q_box with
              | Ok (SUCCESSFUL_RETURN, k1, s1) => q_status (p_b s1) = QPS_SOLVED /\
                  match box_hot 1 s1 with
                  | Ok (RET_MAX_NWSR_REACHED, k2, s2) => k2 = 1 /\ q_status (p_b s2) = QPS_HOMOTOPYQPSOLVED /\ pV s2 = 2 /\
                      match p_areBoundsConsistent (N := QNum) (Some [-10;-10]%Q) (Some [10;10]%Q) (Some [-10;-10]%Q) (Some [1;1]%Q) s2 with Ok SUCCESSFUL_RETURN => True | _ => False end /\
                      match box_hot 10 s2 with Ok (SUCCESSFUL_RETURN, k3, s3) => q_status (p_b s3) = QPS_SOLVED /\ map Qred (q_x (p_b s3)) = [-3;-5]%Q | _ => False end
                  | _ => False
                  end
              | _ => False
              end) by (vm_compute; auto 10).
  destruct q_box as [[[[] k1] s1]| |]; try contradiction. destruct T as [S1 T]. exists k1, s1.
  destruct (box_hot 1 s1) as [[[[] k2] s2]| |]; try contradiction. destruct T as (-> & S2 & V2 & C2 & T). exists s2.
  destruct (box_hot 10 s2) as [[[[] k3] s3]| |]; try contradiction. destruct T as (S3 & X3). exists k3, s3.
  destruct (p_areBoundsConsistent _ _ _ _ s2) as [[]| |]; try contradiction. unfold accepts.
  repeat split; auto. lia.
Qed.

Print Assumptions C46_budget_QProblem.
Print Assumptions C46_accepted_QProblem.
Print Assumptions C46_continues_QProblem.
Print Assumptions C46_zero_budget_QProblem.
Print Assumptions C46_init_QProblem.
Print Assumptions C46_refuted_QProblem.
