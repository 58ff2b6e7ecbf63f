(** Memory safety of QProblemB, continued: solveQP, far bounds, hotstart, init,
    and an account of return values, status, flags and iteration counts. *)
From Verif Require Import Base Types Num Indexlist IndexlistProofs SubjectTo SubjectToProofs SubjectToProofs2 Options Flipper PropFlipper
  Utils Matrices CsLib LinAlg SafeLib MatSafe QProblemB QPBSafe QPBSafe2 QPBSafe3 QPBSafe4.

Section QPBSafe5.
Context {N : Num}.
Notation arr := (list N).
Notation qpb := (qpb N).
Variable junk : Z -> arr.
Hypothesis J : junk_ok junk.
Variable cpu : Z -> bool.
Hint Resolve oframe_refl hframe_refl sfr_refl sst_refl cfr_refl : core.
Notation bst s i := (zs (st_status (q_bounds s)) i).

Definition accepted (st : QProblemStatus) : Prop := st = QPS_AUXILIARYQPSOLVED \/ st = QPS_HOMOTOPYQPSOLVED \/ st = QPS_SOLVED.
Definition budget (nWSR p k : Z) : Prop := (p <= k <= nWSR) \/ (nWSR < p /\ k = nWSR).

(** what a run of the homotopy with [p] iterations already performed leaves *)
Definition ran (nWSR p : Z) (s : qpb) (r : returnValue) (k : Z) (s' : qpb) : Prop :=
  accepted (q_status s) /\ q_infeasible s' = false /\ budget nWSR p k /\
  ((r = SUCCESSFUL_RETURN /\ q_status s' = QPS_SOLVED /\ q_unbounded s' = false /\ p <= k < nWSR /\ q_wsc s' = q_wsc s + (k - p)) \/
   (r = RET_MAX_NWSR_REACHED /\ q_unbounded s' = false /\ q_wsc s' = q_wsc s + Z.max 0 (k - p) /\
      (k = nWSR \/ (p < k < nWSR /\ exists c, cpu c = true)) /\
      (k <= p -> q_status s' = q_status s \/ (q_status s = QPS_SOLVED /\ q_status s' = QPS_HOMOTOPYQPSOLVED)) /\
      (p < k -> q_status s' = QPS_HOMOTOPYQPSOLVED)) \/
   (r = RET_HOTSTART_STOPPED_UNBOUNDEDNESS /\ q_unbounded s' = true /\ q_status s' = QPS_HOMOTOPYQPSOLVED /\ q_wsc s' = q_wsc s + Z.max 0 (k - p)) \/
   (r <> SUCCESSFUL_RETURN /\ r <> RET_MAX_NWSR_REACHED /\ q_status s' = QPS_PERFORMINGHOMOTOPY /\ q_unbounded s' = false /\
      q_wsc s' <= q_wsc s + Z.max 0 (k - p))).

Definition owf n (s : qpb) : Prop := exists l0 l1, qwf n s l0 l1.

(** solveQP returns without the unboundedness verdict *)
Definition plainrun (r : returnValue) (s' : qpb) : Prop := q_unbounded s' = false.

Lemma freshDeltas_wf n : 0 <= n -> dwf n (freshDeltas junk n).
Proof. intros H. constructor; cbn; apply J, H. Qed.

Lemma solveQP_safe n (s : qpb) (gn : arr) lbn ubn nWSR p : owf n s -> (accepted (q_status s) -> hk s) ->
  n <= zlen gn -> olen n lbn -> olen n ubn ->
  wp (solveQP junk cpu gn lbn ubn nWSR p s) (fun '(r, k, s') => owf n s' /\ sfr s s' /\
    ((~ accepted (q_status s) /\ r = RET_HOTSTART_FAILED_AS_QP_NOT_INITIALISED /\ k = nWSR /\ s' = s) \/
     (ran nWSR p s r k s' /\ q_unbounded s' = false))).
Proof.
  intros (l0 & l1 & W) HK Hg Hl Hu. unfold solveQP.
  assert (Rej : ~ accepted (q_status s) -> wp (Ok (RET_HOTSTART_FAILED_AS_QP_NOT_INITIALISED, nWSR, s))
    (fun '(r, k, s') => owf n s' /\ sfr s s' /\
    ((~ accepted (q_status s) /\ r = RET_HOTSTART_FAILED_AS_QP_NOT_INITIALISED /\ k = nWSR /\ s' = s) \/
     (ran nWSR p s r k s' /\ q_unbounded s' = false)))).
  { intros A. cbn. split; [exists l0, l1; exact W|]. split; [auto|]. left. auto. }
  destruct (q_status s) eqn:Q; try (apply Rej; unfold accepted; intros [X|[X|X]]; discriminate X); clear Rej.
  all: assert (A : accepted (q_status s)) by (unfold accepted; auto); rewrite <- Q in *; specialize (HK A); clear Q.
  all: sstep; (eapply wp_mono; [apply (setupSubjectToType_safe n s l0 l1 lbn ubn W Hl Hu)|]); intros s1 (W1 & b & E1 & _); cbv zeta.
  all: set (s2 := set_q_unbounded false (set_q_infeasible false s1)).
  all: assert (W2 : qwf n s2 l0 l1) by (apply (wf_same n s1); [exact W1|samearr]).
  all: assert (F2 : sfr s s2) by (subst s2 s1; frm).
  all: assert (I2 : q_infeasible s2 = false) by reflexivity; assert (U2 : q_unbounded s2 = false) by reflexivity.
  all: assert (Q2 : q_status s2 = q_status s) by (subst s2 s1; reflexivity); assert (C2 : q_wsc s2 = q_wsc s) by (subst s2 s1; reflexivity).
  all: clearbody s2; clear W1 E1 s1 b.
  all: rewrite (w_nv _ _ _ _ W2); sstep.
  all: destruct (Z.le_gt_cases p nWSR) as [Hp|Hp];
    [|unfold forb_up; replace (Z.to_nat (nWSR - p)) with 0%nat by lia; cbn; split; [exists l0, l1; exact W2|]; split; [exact F2|]; right;
      split; [|exact U2]; split; [exact A|]; split; [exact I2|]; split; [right; lia|]; right; left; repeat split; auto; try lia; left; congruence].
  all: apply wp_forb_up with
     (I := fun i '(s', d) => owf n s' /\ dwf n d /\ sfr s s' /\ q_infeasible s' = false /\ q_unbounded s' = false /\ q_wsc s' = q_wsc s + (i - p) /\
             (i = p -> q_status s' = q_status s) /\ (p < i -> q_status s' = QPS_HOMOTOPYQPSOLVED))
     (J := fun '(r, k, s') => owf n s' /\ sfr s s' /\ ran nWSR p s r k s' /\ q_unbounded s' = false); [lia| | | |].
  all: try (split; [exists l0, l1; exact W2|]; split; [apply freshDeltas_wf; pose proof (w_n _ _ _ _ W2); lia|]; split; [exact F2|]; repeat split; auto; lia).
  all: try (intros [[r k] s'] H; destruct H as (H1 & H2 & H3); split; [exact H1|]; split; [exact H2|]; right; exact H3).
  all: try (intros [s' d] ((m0 & m1 & W3) & D & F3 & I3 & U3 & C3 & Qa & Qb); cbn; split; [exists m0, m1; exact W3|]; split; [exact F3|]; right;
     split; [|exact U3]; split; [exact A|]; split; [exact I3|]; split; [left; lia|]; right; left; repeat split; auto; try lia;
     [intros; left; apply Qa; lia]).
  all: intros i [s3 d] Hi ((m0 & m1 & W3) & D & F3 & I3 & U3 & C3 & Qa & Qb).
  all: eapply wp_mono; [apply (solveIter_safe junk J cpu n s3 m0 m1 gn lbn ubn nWSR p i d W3 (hk_frame _ _ F3 HK) I3 U3 Hg Hl Hu D)|].
  all: intros [[s4 d4]|[[r k] s4]].
  all: try (intros (D4 & F4 & (G1 & G2) & Q4 & C4 & W4); split; [exact W4|]; split; [exact D4|]; split; [eauto using sfr_trans|];
     split; [congruence|]; split; [congruence|]; split; [lia|]; split; [lia|auto]).
  all: intros (St & F4 & (G1 & G2) & W4); split; [exact W4|]; split; [eauto using sfr_trans|]; split; [|congruence];
     split; [exact A|]; split; [congruence|].
  all: destruct St as [(-> & -> & Q4 & C4 & Hc & Hx)|[(-> & -> & Q4 & C4)|(N1 & N2 & Q4 & HK4)]].
  all: try (split; [left; lia|]).
  all: try (right; left; split; [reflexivity|]; split; [congruence|]; split; [lia|]; split; [right; split; [lia|exact Hx]|]; split; [lia|];
      intros _; rewrite Q4; apply Qb; lia).
  all: try (left; repeat split; auto; try congruence; lia).
  all: right; right; right; split; [exact N1|]; split; [exact N2|]; split; [exact Q4|]; split; [congruence|]; lia.
Qed.

Lemma ran_trans_max nWSR p k1 s r1 s1 s1' r2 k2 s2 : ran nWSR p s r1 k1 s1 -> q_wsc s1' = q_wsc s1 ->
  (r1 = SUCCESSFUL_RETURN -> q_status s1' = QPS_SOLVED \/ q_status s1' = QPS_HOMOTOPYQPSOLVED) ->
  r1 = SUCCESSFUL_RETURN -> ran nWSR k1 s1' r2 k2 s2 -> ran nWSR p s r2 k2 s2.
Proof.
  intros (A & I1 & B1 & H1) C E -> (A2 & I2 & B2 & H2).
  destruct H1 as [(_ & Q1 & U1 & K1 & C1)|[(X & _)|[(X & _)|(X & _)]]]; try discriminate X; [|congruence].
  split; [exact A|]. split; [exact I2|]. assert (KB : k1 <= k2 <= nWSR) by (unfold budget in *; lia).
  split; [left; lia|].
  destruct H2 as [(-> & Q2 & U2 & K2 & C2)|[(-> & U2 & C2 & M2 & Q2 & Q2')|[(-> & U2 & Q2 & C2)|(N1 & N2 & Q2 & U2 & C2)]]].
  - left. repeat split; auto; lia.
  - right; left. split; [reflexivity|]. split; [exact U2|]. split; [lia|]. split; [|split].
    + destruct M2 as [M2|[M2 X]]; [left; exact M2|right; split; [lia|exact X]].
    + intros Hk. assert (k2 = nWSR) by lia. lia.
    + intros _. assert (k1 < k2) by lia. auto.
  - right; right; left. repeat split; auto; lia.
  - right; right; right. repeat split; auto; lia.
Qed.

(** ** regularisation steps *)
Lemma solveRegularisedQP_safe n (s : qpb) (gn : arr) lbn ubn nWSR p : owf n s -> (accepted (q_status s) -> hk s) ->
  n <= zlen gn -> olen n lbn -> olen n ubn ->
  wp (solveRegularisedQP junk cpu gn lbn ubn nWSR p s) (fun '(r, k, s') => owf n s' /\ sfr s s' /\
    ((~ accepted (q_status s) /\ r = RET_HOTSTART_FAILED_AS_QP_NOT_INITIALISED /\ k = nWSR /\ s' = s) \/
     (ran nWSR p s r k s' /\ q_unbounded s' = false))).
Proof.
  intros W HK Hg Hl Hu. unfold solveRegularisedQP. destruct (negb (usingReg s)); [now apply solveQP_safe|].
  sstep. eapply wp_mono; [now apply (solveQP_safe n)|]. intros [[r k] s1] (W1 & F1 & H1).
  destruct (r =r? SUCCESSFUL_RETURN) eqn:Er; cbn [negb]; [|cbn; auto].
  apply rv_eqb_eq in Er. subst r. destruct H1 as [(_ & X & _)|(R1 & U1)]; [discriminate X|].
  assert (Hn : 0 < n) by (destruct W1 as (m0 & m1 & []); auto).
  assert (Q1 : q_status s1 = QPS_SOLVED).
  { destruct R1 as (_ & _ & _ & [(_ & X & _)|[(X & _)|[(X & _)|(X & _)]]]); try discriminate X; [exact X|congruence]. }
  assert (K : hk s) by (apply HK; apply R1).
  sstep. apply wp_forb_inv with
    (I := fun '(t, s', gm) => owf n s' /\ sfr s s' /\ ran nWSR p s SUCCESSFUL_RETURN t s' /\ q_unbounded s' = false /\ q_status s' = QPS_SOLVED /\ zlen gm = n)
    (J := fun '(r, t, s') => owf n s' /\ sfr s s' /\ ran nWSR p s r t s' /\ q_unbounded s' = false).
  - destruct W1 as (m0 & m1 & W1). split; [exists m0, m1; exact W1|]. split; [exact F1|]. split; [exact R1|]. split; [exact U1|]. split; [exact Q1|].
    rewrite (w_nv _ _ _ _ W1). apply J. lia.
  - intros i [[t s2] gm] Hi ((m0 & m1 & W2) & F2 & R2 & U2 & Q2 & Lg). sstep. rewrite (w_nv _ _ _ _ W2).
    apply wp_for_inv with (I := fun a => zlen a = n); auto.
    { intros j a Hj La. sstep. sstep; [lia|]. sstep. sstep; [rewrite (w_x _ _ _ _ W2); lia|]. apply wp_wrv; [lia|congruence]. }
    intros gm' Lg'. sstep. eapply wp_mono; [apply (solveQP_safe n s2 gm' lbn ubn nWSR t); [exists m0, m1; exact W2|intros _; exact (hk_frame _ _ F2 K)|lia|auto|auto]|].
    intros [[r3 t3] s3] (W3 & F3 & H3). destruct H3 as [(X & _)|(R3 & U3)]; [exfalso; apply X; unfold accepted; auto|].
    assert (RR : ran nWSR p s r3 t3 s3) by (eapply (ran_trans_max nWSR p t s SUCCESSFUL_RETURN s2 s2); eauto).
    destruct (r3 =r? SUCCESSFUL_RETURN) eqn:Er3; cbn [negb wp].
    + apply rv_eqb_eq in Er3. subst r3. split; [exact W3|]. split; [eauto using sfr_trans|]. split; [exact RR|]. split; [exact U3|]. split; [|exact Lg'].
      destruct RR as (_ & _ & _ & [(_ & X & _)|[(X & _)|[(X & _)|(X & _)]]]); try discriminate X; [exact X|congruence].
    + split; [exact W3|]. split; [eauto using sfr_trans|]. split; [exact RR|exact U3].
  - intros [[t s2] gm] ((m0 & m1 & W2) & F2 & R2 & U2 & Q2 & Lg). sstep. rewrite (w_nv _ _ _ _ W2).
    apply wp_for_inv with (I := fun a => zlen a = n); [apply W2| |].
    { intros j a Hj La. sstep. sstep; [lia|]. apply wp_wrv; [lia|congruence]. }
    intros g' Lg'. cbn [wp]. split; [exists m0, m1; now apply wf_set_g|]. split; [destruct F2; frm|]. right. split; [|exact U2]. exact R2.
  - intros [[r3 t3] s3] (W3 & F3 & R3 & U3). cbn. split; [exact W3|]. split; [exact F3|]. right. auto.
Qed.

(** ** far bounds *)
Fixpoint grows (grow : N) (fuel : nat) (far : N) : Prop :=
  match fuel with
  | O => False
  | Datatypes.S f => (far *' grow) >=' nINFTY = true \/ grows grow f (far *' grow)
  end.
Lemma countActiveFar_safe n (s : qpb) (lbn ubn : option arr) (lf uf : arr) tol : owf n s -> olen n lbn -> olen n ubn -> zlen lf = n -> zlen uf = n ->
  wp (countActiveFar lbn ubn lf uf tol s) (fun _ => True).
Proof.
  intros (l0 & l1 & W) Hl Hu L1 L2. unfold countActiveFar. rewrite (w_nv _ _ _ _ W). apply wp_for_inv with (I := fun _ => True); auto.
  intros i c Hi _. sstep. sstep; [lia|]. sstep. sstep; [lia|]. sstep. sstep; [rewrite (w_x _ _ _ _ W); lia|].
  sstep. eapply wp_mono with (P := fun _ => True). { destruct lbn; cbn in Hl; [|exact I]. sstep. sstep; [lia|exact I]. }
  intros a _. sstep. eapply wp_mono with (P := fun _ => True). { destruct ubn; cbn in Hu; [|exact I]. sstep. sstep; [lia|exact I]. }
  intros b _. exact I.
Qed.
Lemma extendFar_safe n (lbn ubn : option arr) far : olen n lbn -> olen n ubn -> wp (extendFar lbn ubn n far) (fun _ => True).
Proof.
  intros Hl Hu. unfold extendFar. sstep. eapply wp_mono with (P := fun _ => True).
  { destruct ubn; cbn in Hu; [|exact I]. apply wp_for_inv with (I := fun _ => True); auto. intros i v Hi _. sstep. sstep; [lia|exact I]. }
  intros f _. destruct lbn; cbn in Hl; [|exact I]. apply wp_for_inv with (I := fun _ => True); auto. intros i v Hi _. sstep. sstep; [lia|exact I].
Qed.

(** a rejected run leaves everything but the ramp offset *)
Definition rejected (nWSR : Z) (s : qpb) (r : returnValue) (k : Z) (s' : qpb) : Prop :=
  ~ accepted (q_status s) /\ k = nWSR /\ (r = RET_HOTSTART_FAILED_AS_QP_NOT_INITIALISED \/ r = RET_HOTSTART_STOPPED_INFEASIBILITY) /\
  exists o, s' = set_q_rampOffset o s.
Lemma owf_same n s s' : same_arrays s s' -> owf n s -> owf n s'.
Proof. intros E (l0 & l1 & W). exists l0, l1. apply (wf_same n s); auto. Qed.

Lemma farLoop_safe n fuel : forall (s : qpb) (gn : arr) lbn ubn nWSR p far lf uf, owf n s -> (accepted (q_status s) -> hk s) ->
  n <= zlen gn -> olen n lbn -> olen n ubn -> zlen lf = n -> zlen uf = n -> grows (o_growFarBounds (q_opts s)) fuel far ->
  wp (farLoop junk cpu fuel gn lbn ubn nWSR p far lf uf s) (fun '(r, k, s') => owf n s' /\ sfr s s' /\
    (rejected nWSR s r k s' \/ ran nWSR p s r k s')).
Proof.
  induction fuel as [|fuel IH]; intros s gn lbn ubn nWSR p far lf uf W HK Hg Hl Hu L1 L2 G; [contradiction|]. cbn [farLoop].
  sstep. eapply wp_mono; [apply (solveRegularisedQP_safe n s gn (Some lf) (Some uf) nWSR p W HK Hg); cbn; lia|].
  intros [[r k] s1] (W1 & F1 & H1). cbv zeta.
  assert (EG : o_growFarBounds (q_opts s1) = o_growFarBounds (q_opts s)) by (destruct (f_o _ _ F1) as [e ->]; reflexivity). rewrite EG.
  cbn [grows] in G.
  assert (Again : forall s2, owf n s2 -> sfr s s2 -> (accepted (q_status s2) -> hk s2) -> grows (o_growFarBounds (q_opts s)) fuel (far *' o_growFarBounds (q_opts s)) ->
     wp ('(lf, uf) <- updateFarBounds (far *' o_growFarBounds (q_opts s)) (nV s2) lbn ubn s2 lf uf ;;
        farLoop junk cpu fuel gn lbn ubn nWSR k (far *' o_growFarBounds (q_opts s)) lf uf (set_q_rampOffset (q_rampOffset s2 + 1) s2))
       (fun '(r, k', s') => owf n s' /\ sfr s2 s' /\
          (rejected nWSR (set_q_rampOffset (q_rampOffset s2 + 1) s2) r k' s' \/ ran nWSR k (set_q_rampOffset (q_rampOffset s2 + 1) s2) r k' s'))).
  { intros s2 W2 F2 HK2 G2. sstep. eapply wp_mono; [apply (updateFarBounds_safe _ _ lbn ubn s2 lf uf n); auto; destruct W2 as (m0 & m1 & W2); exact (w_nv _ _ _ _ W2)|].
    intros [lf' uf'] (A & B).
    assert (EG2 : o_growFarBounds (q_opts s2) = o_growFarBounds (q_opts s)) by (destruct (f_o _ _ F2) as [e ->]; reflexivity).
    eapply wp_mono; [apply (IH (set_q_rampOffset (q_rampOffset s2 + 1) s2) gn lbn ubn nWSR k _ lf' uf'); auto; [eapply owf_same; [|exact W2]; samearr|cbn; now rewrite EG2]|].
    intros [[r' k'] s'] (A' & F' & H'). split; [exact A'|]. split; [destruct F'; cbn in *; constructor; auto|exact H']. }
  destruct H1 as [(NA & -> & -> & ->)|(R1 & U1)].
  - (* rejected *)
    assert (RR : forall r', r' = RET_HOTSTART_FAILED_AS_QP_NOT_INITIALISED \/ r' = RET_HOTSTART_STOPPED_INFEASIBILITY ->
       wp (Ok (r', nWSR, s)) (fun '(r, k, s') => owf n s' /\ sfr s s' /\ (rejected nWSR s r k s' \/ ran nWSR p s r k s'))).
    { intros r' Hr'. cbn. split; [exact W|]. split; [auto|]. left. split; [exact NA|]. split; [reflexivity|]. split; [exact Hr'|].
      exists (q_rampOffset s). destruct s; reflexivity. }
    destruct (q_infeasible s).
    + destruct (_ >=' _) eqn:GE; [apply RR; auto|]. destruct G as [G|G]; [congruence|].
      eapply wp_mono; [apply (Again s W (sfr_refl s) HK G)|]. intros [[r' k'] s'] (A & B & H). split; [exact A|]. split; [exact B|]. left.
      destruct H as [(H1 & H2 & H3 & o & H4)|(X & _)]; [|contradiction].
      split; [exact NA|]. split; [exact H2|]. split; [exact H3|]. exists o. rewrite H4. reflexivity.
    + destruct (is_qps (q_status s) QPS_SOLVED) eqn:Q; [|apply RR; auto].
      exfalso. apply NA. unfold is_qps in Q. destruct (qps_eq_dec _ _); [unfold accepted; auto|discriminate].
  - (* accepted *)
    pose proof R1 as (A1 & I1 & B1 & D1). specialize (HK A1). pose proof (hk_frame _ _ F1 HK) as K1. rewrite I1.
    destruct (is_qps (q_status s1) QPS_SOLVED) eqn:Q.
    2:{ cbn. auto. }
    assert (Q1 : q_status s1 = QPS_SOLVED) by (unfold is_qps in Q; destruct (qps_eq_dec _ _); [auto|discriminate]).
    sstep. eapply wp_mono; [now apply (countActiveFar_safe n)|]. intros c _. destruct (c =? 0); [cbn; auto|].
    set (s2 := set_q_status QPS_HOMOTOPYQPSOLVED s1).
    assert (W2 : owf n s2) by (eapply owf_same; [|exact W1]; unfold s2; samearr).
    assert (F2 : sfr s s2) by (destruct F1; unfold s2; frm).
    (* r is SUCCESSFUL_RETURN, or there was no budget and s was solved *)
    assert (CS : (r = SUCCESSFUL_RETURN /\ p <= k < nWSR /\ q_wsc s1 = q_wsc s + (k - p)) \/
                 (k <= p /\ k = nWSR /\ q_status s = QPS_SOLVED /\ q_wsc s1 = q_wsc s)).
    { destruct D1 as [(-> & _ & _ & Hk & C)|[(-> & _ & C & M & Qa & Qb)|[(_ & X & _)|(_ & _ & X & _)]]].
      - left; auto.
      - right. destruct (Z.le_gt_cases k p) as [Hkp|Hkp]; [|rewrite (Qb Hkp) in Q1; discriminate Q1].
        split; [exact Hkp|]. split; [lia|]. split; [|lia]. destruct (Qa Hkp) as [X|[X _]]; congruence.
      - congruence.
      - congruence. }
    destruct (_ >=' _) eqn:GE.
    + cbn. split; [eapply owf_same; [|exact W2]; samearr|]. split; [destruct F2; frm|]. right.
      split; [exact A1|]. split; [exact I1|]. split; [exact B1|]. right; right; left. repeat split; auto. cbn. lia.
    + destruct G as [G|G]; [congruence|].
      eapply wp_mono; [apply (Again s2 W2 F2 (fun _ => hk_frame _ _ F2 HK) G)|]. intros [[r' k'] s'] (A & B & H). split; [exact A|].
      split; [eauto using sfr_trans|]. right.
      destruct H as [(H1 & _)|H]; [exfalso; apply H1; unfold accepted; cbn; auto|].
      destruct CS as [(-> & Hk & C)|(Hk & Ek & Qs & C)].
      * eapply (ran_trans_max nWSR p k s SUCCESSFUL_RETURN s1); [exact R1| | | |exact H]; auto.
      * destruct H as (Ha & Hb & Hc & Hd). split; [exact A1|]. split; [exact Hb|].
        assert (k' = k) by (unfold budget in *; lia). subst k'.
        split; [exact B1|]. destruct Hd as [(-> & X1 & X2 & X3 & X4)|[(-> & X1 & X2 & X3 & X4 & X5)|[(-> & X1 & X2 & X3)|(X1 & X2 & X3 & X4 & X5)]]].
        -- lia.
        -- right; left. cbn in X2. split; [reflexivity|]. split; [exact X1|]. split; [lia|]. split; [left; exact Ek|]. split; [|lia].
           intros _. right. split; [exact Qs|]. destruct (X4 ltac:(lia)) as [X|[X _]]; [exact X|discriminate X].
        -- right; right; left. cbn in X3. repeat split; auto. lia.
        -- right; right; right. cbn in X5. repeat split; auto. lia.
Qed.
End QPBSafe5.
