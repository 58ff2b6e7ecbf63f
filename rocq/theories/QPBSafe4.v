(** Memory safety of QProblemB, continued: the homotopy, and what it returns. *)
From Verif Require Import Base Types Num Indexlist IndexlistProofs SubjectTo SubjectToProofs SubjectToProofs2 Options Flipper PropFlipper
  Utils Matrices CsLib LinAlg SafeLib MatSafe QProblemB QPBSafe QPBSafe2 QPBSafe3.

Section QPBSafe4.
Context {N : Num}.
Notation arr := (list N).
Notation qpb := (qpb N).
Variable junk : Z -> arr.
Hypothesis J : junk_ok junk.
Hint Resolve oframe_refl hframe_refl sfr_refl sst_refl cfr_refl : core.
Notation bst s i := (zs (st_status (q_bounds s)) i).

Lemma stepIdx_safe n idx (l : list Z) (tau : N) (dx x : arr) : il_rep idx l -> (forall v, In v l -> 0 <= v < n) -> zlen l <= zlen dx -> zlen x = n ->
  wp (stepIdx (zlen l) (il_number idx) tau dx x) (fun x' => zlen x' = n).
Proof.
  intros R Rg Hd Hx. unfold stepIdx. apply wp_for_inv with (I := fun x => zlen x = n); auto. intros i a Hi La.
  sstep. apply (wp_rdi _ l); auto. intros Hin. apply Rg in Hin. sstep. sstep; [lia|]. sstep. sstep; [lia|]. apply wp_wrv; [lia|congruence].
Qed.
Lemma stepAll_safe n (tau : N) (dx x : arr) : zlen dx = n -> zlen x = n -> wp (stepAll n tau dx x) (fun x' => zlen x' = n).
Proof.
  intros Hd Hx. unfold stepAll. apply wp_for_inv with (I := fun x => zlen x = n); auto. intros i a Hi La.
  sstep. sstep; [lia|]. sstep. sstep; [lia|]. apply wp_wrv; [lia|congruence].
Qed.
Lemma applyStep_safe n (s : qpb) l0 l1 d : qwf n s l0 l1 -> dwf n d ->
  wp (applyStep d s) (fun s' => qwf n s' l0 l1 /\ exists x y g lb ub, s' = set_q_ub ub (set_q_lb lb (set_q_g g (set_q_y y (set_q_x x s))))).
Proof.
  intros W []. unfold applyStep. cbv zeta.
  destruct (q_tau s >' nZERO).
  2:{ cbn. split; [exact W|]. exists (q_x s), (q_y s), (q_g s), (q_lb s), (q_ub s). destruct s; reflexivity. }
  rewrite (w_nfr _ _ _ _ W), (w_nfx _ _ _ _ W), (w_nv _ _ _ _ W). pose proof (w_len0 _ _ _ _ W). pose proof (w_len1 _ _ _ _ W).
  pose proof (w_rep0 _ _ _ _ W) as R0. pose proof (w_rep1 _ _ _ _ W) as R1. pose proof (w_in0 _ _ _ _ W) as I0. pose proof (w_in1 _ _ _ _ W) as I1.
  sstep. eapply wp_mono; [apply (stepIdx_safe n _ l0); auto; [lia|apply W]|]. intros x Lx. cbn beta in Lx.
  sstep. eapply wp_mono; [apply (stepIdx_safe n _ l1); auto; lia|]. intros x' Lx'. cbn beta in Lx'.
  sstep. eapply wp_mono; [apply (stepIdx_safe n _ l1); auto; [lia|apply W]|]. intros y Ly. cbn beta in Ly.
  sstep. eapply wp_mono; [apply (stepAll_safe n); auto; apply W|]. intros g Lg. cbn beta in Lg.
  sstep. eapply wp_mono; [apply (stepAll_safe n); auto; apply W|]. intros lb Ll. cbn beta in Ll.
  sstep. eapply wp_mono; [apply (stepAll_safe n); auto; apply W|]. intros ub Lu. cbn beta in Lu. cbn [wp].
  split; [|eauto 8]. apply wf_set_ub; [apply wf_set_lb; [apply wf_set_g; [apply wf_set_y; [apply wf_set_x|]|]|]|]; auto.
Qed.
Lemma performStep_safe n (s : qpb) l0 l1 d : qwf n s l0 l1 -> dwf n d ->
  wp (performStep junk d s) (fun '(bi, bs, s') => picked l0 l1 bi bs /\ qwf n s' l0 l1 /\ sfr s s' /\ sst s s').
Proof.
  intros W D. unfold performStep. sstep. eapply wp_mono; [apply (ratioTests_safe junk J n s l0 l1 d W D)|]. intros [[t bi] bs] P.
  sstep. eapply wp_mono; [apply (applyStep_safe n (set_q_tau t s) l0 l1 d); [apply (wf_same n s); [exact W|samearr]|exact D]|].
  intros s' (W' & x & y & g & lb & ub & ->). cbn [wp]. split; [exact P|]. split; [exact W'|]. split; frm.
Qed.
Lemma homLen1_safe n (new cur : arr) len : n <= zlen new -> zlen cur = n -> wp (homLen1 new cur n len) (fun _ => True).
Proof.
  intros H1 H2. unfold homLen1. apply wp_for_inv with (I := fun _ => True); auto. intros i v Hi _. sstep. sstep; [lia|]. sstep. sstep; [lia|]. exact I.
Qed.
Lemma homotopyLength_safe n (s : qpb) l0 l1 (gn : arr) lbn ubn : qwf n s l0 l1 -> n <= zlen gn -> olen n lbn -> olen n ubn ->
  wp (getRelativeHomotopyLength gn lbn ubn s) (fun _ => True).
Proof.
  intros W Hg Hl Hu. unfold getRelativeHomotopyLength. rewrite (w_nv _ _ _ _ W).
  sstep. eapply wp_mono; [apply homLen1_safe; [exact Hg|apply W]|]. intros len _.
  sstep. eapply wp_mono with (P := fun _ => True). { destruct lbn; [|exact I]. apply homLen1_safe; [exact Hl|apply W]. }
  intros len2 _. destruct ubn; [|exact I]. apply homLen1_safe; [exact Hu|apply W].
Qed.

Lemma changeActiveSet_safe n (s : qpb) l0 l1 bi bs : qwf n s l0 l1 -> hk s -> picked l0 l1 bi bs -> noUpdate s = false ->
  wp (changeActiveSet junk bi bs s) (fun '(r, s') => r <> RET_MAX_NWSR_REACHED /\ sfr s s' /\ sst s s' /\
    (r = SUCCESSFUL_RETURN -> bs <> ST_UNDEFINED) /\ exists l0' l1', qwf n s' l0' l1').
Proof.
  intros W K P NU. unfold changeActiveSet.
  assert (Add : is_active bs = true -> wp ('(r, s) <- addBound bi bs true s ;;
      Ok (if r =r? SUCCESSFUL_RETURN then SUCCESSFUL_RETURN else RET_ADD_TO_ACTIVESET_FAILED, s))
    (fun '(r, s') => r <> RET_MAX_NWSR_REACHED /\ sfr s s' /\ sst s s' /\ (r = SUCCESSFUL_RETURN -> bs <> ST_UNDEFINED) /\ exists l0' l1', qwf n s' l0' l1')).
  { intros A. assert (Hin : In bi l0). { destruct P as [-> | [[-> _] | [_ H]]]; [discriminate A|discriminate A|exact H]. }
    sstep. eapply wp_mono; [apply (addBound_safe n s l0 l1 bi bs true W Hin A NU)|]. intros [r s'] (-> & Ad). cbn.
    split; [discriminate|]. destruct (added_frames _ _ _ _ _ _ _ Ad). destruct Ad as (W' & _). split; [auto|]. split; [auto|].
    split; [intros _ ->; discriminate A|eauto]. }
  destruct P as [-> | [[-> Hin] | [A Hin]]].
  - cbn. split; [discriminate|]. split; [auto|]. split; [auto|]. split; [discriminate|eauto].
  - sstep. eapply wp_mono; [apply (removeBound_safe junk J n s l0 l1 bi true W K Hin NU)|]. intros [r s'] (_ & _ & _ & l0' & l1' & W' & F & T).
    destruct (negb _). { cbn. split; [discriminate|]. split; [auto|]. split; [auto|]. split; [discriminate|eauto]. }
    sstep. apply wp_wrv; [rewrite (w_y _ _ _ _ W'); exact (w_in1 _ _ _ _ W _ Hin)|]. intros y Ly. cbn [wp]. split; [discriminate|].
    split; [eapply sfr_trans; [exact F|frm]|]. split; [eapply sst_trans; [exact T|frm]|]. split; [discriminate|].
    exists l0', l1'. apply wf_set_y; [exact W'|]. rewrite Ly. apply W'.
  - destruct bs; try discriminate A; apply Add; reflexivity.
Qed.

Lemma afterChange_safe n (s : qpb) l0 l1 iter : qwf n s l0 l1 -> hk s ->
  wp (afterChange iter s) (fun '(r, s') => r <> RET_MAX_NWSR_REACHED /\ qwf n s' l0 l1 /\ sfr s s' /\
    sst (if r =r? SUCCESSFUL_RETURN then set_q_status QPS_HOMOTOPYQPSOLVED s else s) s').
Proof.
  intros W K. unfold afterChange. cbv zeta. sstep.
  eapply wp_mono with (P := fun '(r, s') => r <> RET_MAX_NWSR_REACHED /\ qwf n s' l0 l1 /\ sfr s s' /\ sst s s').
  { sstep; [|cbn; split; [discriminate|auto]].
    eapply wp_mono; [apply (computeCholesky_safe n s l0 l1 W K)|]. intros [r s'] (W' & F & NR & _ & R & h & o & E & _).
    split; [exact NR|]. split; [exact W'|]. split; [exact F|]. subst s'. frm. }
  intros [r s1] (NR & W1 & F1 & T1). destruct (r =r? SUCCESSFUL_RETURN) eqn:Er; cbn [negb].
  2:{ cbn. split; [exact NR|]. rewrite Er. auto. }
  pose proof (hk_frame _ _ F1 K) as K1.
  sstep. eapply wp_mono with (P := fun s' => qwf n s' l0 l1 /\ sfr s1 s' /\ sst s1 s').
  { sstep.
    - eapply wp_mono; [apply (performRamping_safe n s1 l0 l1 W1 K1)|]. intros s' (W' & g & y & lb & ub & ->). split; [exact W'|]. split; frm.
    - sstep; [|cbn; auto]. eapply wp_mono; [apply (performDriftCorrection_safe n s1 l0 l1 W1 K1)|]. intros s' (W' & g & y & lb & ub & ->).
      split; [exact W'|]. split; frm. }
  intros s2 (W2 & F2 & T2). cbn [wp]. split; [discriminate|]. split; [apply (wf_same n s2); [exact W2|samearr]|].
  change (SUCCESSFUL_RETURN =r? SUCCESSFUL_RETURN) with true. cbn iota.
  pose proof (sfr_trans _ _ _ F1 F2) as F. pose proof (sst_trans _ _ _ T1 T2) as T. destruct F, T. split; frm.
Qed.

Section Cpu.
Variable cpu : Z -> bool.

(** ** one iteration *)
Definition flags (s s' : qpb) : Prop := q_infeasible s' = q_infeasible s /\ q_unbounded s' = q_unbounded s.
Definition stop (nWSR performed iter : Z) (s : qpb) (r : returnValue) (k : Z) (s' : qpb) : Prop :=
  (r = RET_MAX_NWSR_REACHED /\ k = iter /\ q_status s' = q_status s /\ q_wsc s' = q_wsc s /\ performed < iter /\ exists c, cpu c = true) \/
  (r = SUCCESSFUL_RETURN /\ k = iter /\ q_status s' = QPS_SOLVED /\ q_wsc s' = q_wsc s) \/
  (r <> SUCCESSFUL_RETURN /\ r <> RET_MAX_NWSR_REACHED /\ q_status s' = QPS_PERFORMINGHOMOTOPY /\
     ((k = iter /\ q_wsc s' = q_wsc s) \/ (k = nWSR /\ q_wsc s' = q_wsc s + 1))).

Lemma solveIter_safe n (s : qpb) l0 l1 (gn : arr) lbn ubn nWSR performed iter d : qwf n s l0 l1 -> hk s -> q_infeasible s = false -> q_unbounded s = false ->
  n <= zlen gn -> olen n lbn -> olen n ubn -> dwf n d ->
  wp (solveIter junk cpu gn lbn ubn nWSR performed iter (s, d)) (fun c => match c with
    | Next (s', d') => dwf n d' /\ sfr s s' /\ flags s s' /\ q_status s' = QPS_HOMOTOPYQPSOLVED /\ q_wsc s' = q_wsc s + 1 /\ exists l0' l1', qwf n s' l0' l1'
    | Brk (r, k, s') => stop nWSR performed iter s r k s' /\ sfr s s' /\ flags s s' /\ exists l0' l1', qwf n s' l0' l1'
    end).
Proof.
  intros W K HI HU Hg Hl Hu D. unfold solveIter.
  assert (CE : let '(ex, s1) := cpuExceeded cpu (iter - performed) s in qwf n s1 l0 l1 /\ sfr s s1 /\ flags s s1 /\ q_wsc s1 = q_wsc s /\ q_status s1 = q_status s /\
     (ex = true -> performed < iter /\ exists c, cpu c = true)).
  { unfold cpuExceeded. destruct (Z.leb_spec (iter - performed) 0).
    - split; [exact W|]. split; [auto|]. split; [split; auto|]. split; [auto|]. split; [auto|discriminate].
    - split; [apply (wf_same n s); [exact W|samearr]|]. split; [frm|]. split; [split; auto|]. split; [auto|]. split; [auto|]. intros E. split; [lia|eauto]. }
  destruct (cpuExceeded cpu (iter - performed) s) as [ex s1]. destruct CE as (W1 & F1 & G1 & C1 & Q1 & X1).
  destruct ex. { cbn. split; [|eauto 6]. left. destruct (X1 eq_refl). tauto. }
  clear X1. cbv zeta. set (s2 := set_q_status QPS_PERFORMINGHOMOTOPY s1).
  assert (W2 : qwf n s2 l0 l1) by (apply (wf_same n s1); [exact W1|samearr]).
  assert (F2 : sfr s s2) by (destruct F1; frm). assert (G2 : flags s s2) by exact G1. assert (C2 : q_wsc s2 = q_wsc s) by exact C1.
  assert (Q2 : q_status s2 = QPS_PERFORMINGHOMOTOPY) by reflexivity. clearbody s2. clear W1 F1 G1 C1 Q1 s1.
  pose proof (hk_frame _ _ F2 K) as K2.
  sstep. eapply wp_mono; [apply (determineDataShift_safe n s2 l0 l1 gn lbn ubn d W2 Hg Hl Hu D)|]. intros [d1 isZ] D1.
  sstep. eapply wp_mono; [apply (determineStepDirection_safe n s2 l0 l1 d1 isZ W2 K2 D1)|]. intros [[r d2] s3] (NR & D2 & W3 & t & E3).
  assert (F3 : sfr s2 s3) by (subst s3; frm). assert (T3 : sst s2 s3) by (subst s3; frm). clear E3 t.
  assert (Fl : forall s', sst s2 s' -> flags s s' /\ q_wsc s' = q_wsc s /\ q_status s' = QPS_PERFORMINGHOMOTOPY).
  { intros s' []. destruct G2 as (G2a & G2b). repeat split; congruence. }
  destruct (r =r? SUCCESSFUL_RETURN) eqn:Er; cbn [negb].
  2:{ apply rv_eqb_neq in Er. destruct (Fl _ T3) as (A & B & C). cbn. split; [right; right; tauto|]. split; [eauto using sfr_trans|]. split; [exact A|eauto]. }
  clear r NR Er. sstep. eapply wp_mono; [apply (performStep_safe n s3 l0 l1 d2 W3 D2)|]. intros [[bi bs] s4] (P & W4 & F4 & T4).
  pose proof (sfr_trans _ _ _ (sfr_trans _ _ _ F2 F3) F4) as F24. pose proof (sst_trans _ _ _ T3 T4) as T24. destruct (Fl _ T24) as (A4 & B4 & S4).
  sstep. eapply wp_mono; [apply (homotopyLength_safe n s4 l0 l1 gn lbn ubn W4 Hg Hl Hu)|]. intros len _.
  sstep.
  { cbn. split; [right; left; tauto|]. split; [destruct F24; frm|]. split; [exact A4|]. exists l0, l1. apply (wf_same n s4); [exact W4|samearr]. }
  pose proof (hk_frame _ _ F24 K) as K4.
  sstep. eapply wp_mono; [apply (changeActiveSet_safe n s4 l0 l1 bi bs W4 K4 P); unfold noUpdate; rewrite S4; reflexivity|].
  intros [r5 s5] (NR5 & F5 & T5 & _ & m0 & m1 & W5). pose proof (sfr_trans _ _ _ F24 F5) as F25. destruct (Fl _ (sst_trans _ _ _ T24 T5)) as (A5 & B5 & S5).
  destruct (r5 =r? SUCCESSFUL_RETURN) eqn:Er; cbn [negb].
  2:{ apply rv_eqb_neq in Er. pose proof A5 as (I5 & U5). rewrite I5, HI, U5, HU. cbn. split; [right; right; tauto|]. split; [auto|]. split; [exact A5|eauto]. }
  sstep. eapply wp_mono; [apply (afterChange_safe n (set_q_wsc (q_wsc s5 + 1) s5) m0 m1 iter); [apply (wf_same n s5); [exact W5|samearr]|exact (hk_frame _ _ F25 K)]|].
  intros [r6 s6] (NR6 & W6 & F6 & T6). assert (F26 : sfr s s6) by (destruct F25, F6; cbn in *; constructor; try congruence; eauto using oframe_trans, hframe_trans).
  destruct (r6 =r? SUCCESSFUL_RETURN) eqn:Er6; cbn [negb wp].
  - destruct T6. cbn in *. destruct A5. split; [exact D2|]. split; [exact F26|]. split; [split; congruence|]. split; [congruence|]. split; [lia|eauto].
  - apply rv_eqb_neq in Er6. destruct T6. cbn in *. destruct A5. split; [right; right|].
    + split; [exact Er6|]. split; [exact NR6|]. split; [congruence|]. right. split; [reflexivity|lia].
    + split; [exact F26|]. split; [split; congruence|eauto].
Qed.
End Cpu.
End QPBSafe4.
