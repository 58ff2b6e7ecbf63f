(** Memory safety of QProblemB, continued: working sets, step, homotopy. *)
From Verif Require Import Base Types Num Indexlist IndexlistProofs SubjectTo SubjectToProofs SubjectToProofs2 Options Flipper PropFlipper
  Utils Matrices CsLib LinAlg SafeLib MatSafe QProblemB QPBSafe QPBSafe2.

Section QPBSafe3.
Context {N : Num}.
Notation arr := (list N).
Notation qpb := (qpb N).
Variable junk : Z -> arr.
Hypothesis J : junk_ok junk.
Hint Resolve oframe_refl hframe_refl sfr_refl sst_refl cfr_refl : core.

(** ** setupAuxiliaryWorkingSet *)
Definition ws_only n (s0 s : qpb) : Prop := exists l0 l1 b R f,
  qwf n s l0 l1 /\ s = set_q_bounds b (set_q_R R (set_q_flip f s0)) /\ same_meta (q_bounds s0) b.
Notation bst s i := (zs (st_status (q_bounds s)) i).
Lemma ws_only_frames n s0 s : ws_only n s0 s -> sfr s0 s /\ sst s0 s.
Proof. intros (l0 & l1 & b & R & f & _ & -> & _). split; frm. Qed.
Lemma ws_only_refl n s l0 l1 : qwf n s l0 l1 -> ws_only n s s.
Proof.
  intros W. exists l0, l1, (q_bounds s), (q_R s), (q_flip s). split; [exact W|]. split; [destruct s; reflexivity|apply same_meta_refl].
Qed.
Lemma same_meta_trans a b c : same_meta a b -> same_meta b c -> same_meta a c.
Proof. unfold same_meta. intros (? & ? & ? & ?) (? & ? & ? & ?). repeat split; congruence. Qed.
Lemma in_inactive n (s : qpb) l0 l1 i : qwf n s l0 l1 -> 0 <= i < n -> bst s i = ST_INACTIVE -> In i l0.
Proof. intros W Hi E. apply (wf_in0 _ _ _ (w_st _ _ _ _ W)). split; [|exact E]. rewrite (w_nV _ _ _ _ W). exact Hi. Qed.
Lemma in_active n (s : qpb) l0 l1 i : qwf n s l0 l1 -> 0 <= i < n -> is_active (bst s i) = true -> In i l1.
Proof. intros W Hi E. apply (wf_in1 _ _ _ (w_st _ _ _ _ W)). split; [|exact E]. rewrite (w_nV _ _ _ _ W). exact Hi. Qed.
Lemma is_sts_true a b : is_sts a b = true <-> a = b.
Proof. unfold is_sts. destruct (sts_eq_dec a b); split; congruence. Qed.
Lemma is_sts_false a b : is_sts a b = false <-> a <> b.
Proof. unfold is_sts. destruct (sts_eq_dec a b); split; congruence. Qed.

Lemma ws_remove n s0 s i : ws_only n s0 s -> hk s -> 0 <= i < n -> is_active (bst s i) = true -> q_status s = QPS_PREPARINGAUXILIARYQP ->
  forall upd, wp (removeBound junk i upd s) (fun '(r, s') => r = SUCCESSFUL_RETURN /\ ws_only n s0 s' /\
    forall k, 0 <= k < n -> bst s' k = if k =? i then ST_INACTIVE else bst s k).
Proof.
  intros (l0 & l1 & b & R & f & W & E & Me) K Hi A P upd.
  assert (NU : noUpdate s = false) by (unfold noUpdate; rewrite P; reflexivity).
  eapply wp_mono; [apply (removeBound_safe junk J n s l0 l1 i upd W K (in_active _ _ _ _ _ W Hi A) NU)|].
  intros [r s'] (_ & H & _). destruct (H P) as (-> & W' & b' & R' & f' & E' & Me' & SE). split; [reflexivity|].
  split.
  - exists (l0 ++ [i]), (spec_remove l1 i), b', R', f'. split; [exact W'|]. split; [rewrite E', E; reflexivity|].
    eapply same_meta_trans; [exact Me|]. rewrite E in Me'. exact Me'.
  - intros k Hk. rewrite E' at 1. cbn [q_bounds set_q_bounds]. rewrite SE. now apply (zs_upd' n s l0 l1).
Qed.
Lemma ws_add n s0 s i v : ws_only n s0 s -> 0 <= i < n -> bst s i = ST_INACTIVE -> is_active v = true -> q_status s = QPS_PREPARINGAUXILIARYQP ->
  forall upd, wp (addBound i v upd s) (fun '(r, s') => r = SUCCESSFUL_RETURN /\ ws_only n s0 s' /\
    forall k, 0 <= k < n -> bst s' k = if k =? i then v else bst s k).
Proof.
  intros (l0 & l1 & b & R & f & W & E & Me) Hi A Av P upd.
  assert (NU : noUpdate s = false) by (unfold noUpdate; rewrite P; reflexivity).
  eapply wp_mono; [apply (addBound_safe n s l0 l1 i v upd W (in_inactive _ _ _ _ _ W Hi A) Av NU)|].
  intros [r s'] (-> & W' & b' & R' & E' & Me' & SE). split; [reflexivity|].
  split.
  - exists (spec_remove l0 i), (l1 ++ [i]), b', R', f. split; [exact W'|]. split; [rewrite E', E; reflexivity|].
    eapply same_meta_trans; [exact Me|]. rewrite E in Me'. exact Me'.
  - intros k Hk. rewrite E' at 1. cbn [q_bounds set_q_bounds]. rewrite SE. now apply (zs_upd' n s l0 l1).
Qed.

Lemma ws_status n s0 s i : ws_only n s0 s -> 0 <= i < n -> st_getStatus (q_bounds s) i = Ok (bst s i).
Proof. intros (l0 & l1 & b & R & f & W & _) Hi. exact (w_status _ _ _ _ W i Hi). Qed.
Lemma ws_good n s0 s i : ws_only n s0 s -> 0 <= i < n -> good_status (bst s i).
Proof. intros (l0 & l1 & b & R & f & W & _) Hi. now apply W. Qed.
Lemma ws_nv n s0 s : ws_only n s0 s -> nV s = n.
Proof. intros (l0 & l1 & b & R & f & W & _). exact (w_nv _ _ _ _ W). Qed.
Lemma ws_prep n s0 s : ws_only n s0 s -> q_status s0 = QPS_PREPARINGAUXILIARYQP -> q_status s = QPS_PREPARINGAUXILIARYQP.
Proof. intros H <-. apply (f_stat _ _ (proj2 (ws_only_frames _ _ _ H))). Qed.
Lemma ws_hk n s0 s : ws_only n s0 s -> hk s0 -> hk s.
Proof. intros H. apply hk_frame. apply (proj1 (ws_only_frames _ _ _ H)). Qed.

Lemma setupAuxiliaryWorkingSet_safe n (s : qpb) l0 l1 aux afresh : qwf n s l0 l1 -> hk s -> gwf aux -> q_status s = QPS_PREPARINGAUXILIARYQP ->
  wp (setupAuxiliaryWorkingSet junk (Some aux) afresh s) (fun '(r, s') => ws_only n s s' /\ r <> RET_MAX_NWSR_REACHED /\
    (r = SUCCESSFUL_RETURN -> afresh = false \/ (forall i, 0 <= i < n -> bst s i = ST_INACTIVE) ->
       n <= st_n aux /\ forall i, 0 <= i < n -> bst s' i = zs (st_status aux) i)).
Proof.
  intros W K G P. pose proof (w_n _ _ _ _ W) as Hn. pose proof (ws_only_refl _ _ _ _ W) as W0.
  unfold setupAuxiliaryWorkingSet. rewrite (w_nv _ _ _ _ W). sstep.
  apply wp_forb_up with (I := fun i _ => forall k, 0 <= k < i -> bst s k <> ST_UNDEFINED /\ k < st_n aux /\ zs (st_status aux) k <> ST_UNDEFINED)
    (J := fun _ => True); [lia|intros; lia| | |].
  { intros i _ Hi Hk. rewrite (w_status _ _ _ _ W i Hi). cbn [bind].
    destruct (is_sts (bst s i) ST_UNDEFINED) eqn:E1; [exact I|]. apply is_sts_false in E1.
    sstep. eapply wp_mono; [apply (gwf_status aux i G)|].
    intros v (_ & Ev & Hv). destruct (is_sts v ST_UNDEFINED) eqn:E; [exact I|]. apply is_sts_false in E. cbn. specialize (Hv E). specialize (Ev Hv).
    intros k Hk'. destruct (Z.eq_dec k i) as [->|Ne]; [|apply Hk; lia]. split; [exact E1|]. split; [lia|congruence]. }
  2:{ intros e _. cbn. split; [exact W0|]. split; [discriminate|discriminate]. }
  intros _ Def. assert (Na : n <= st_n aux) by (destruct (Def (n - 1)) as (_ & X & _); lia).
  destruct G as ((a0 & a1 & WA) & GA).
  assert (AS : forall i, 0 <= i < n -> st_getStatus aux i = Ok (zs (st_status aux) i)).
  { intros i Hi. apply (getStatus_ok _ a0 a1); [exact WA|lia]. }
  sstep.
  eapply wp_mono with (P := fun c => match c with
    | Brk s' => ws_only n s s'
    | Next s' => ws_only n s s' /\ (forall k, 0 <= k < n -> bst s' k <> ST_UNDEFINED) /\ (afresh = false \/ (forall i, 0 <= i < n -> bst s i = ST_INACTIVE) ->
        forall k, 0 <= k < n -> bst s' k = ST_INACTIVE \/ bst s' k = zs (st_status aux) k)
    end).
  { destruct afresh; cbn [negb].
    { cbn. split; [exact W0|]. split; [intros; now apply Def|]. intros [X|X]; [discriminate|]. intros k Hk. left. now apply X. }
    apply wp_forb_up with (I := fun i s' => ws_only n s s' /\ (forall k, 0 <= k < n -> bst s' k <> ST_UNDEFINED) /\
        forall k, 0 <= k < i -> bst s' k = ST_INACTIVE \/ bst s' k = zs (st_status aux) k)
      (J := fun s' => ws_only n s s'); auto; [lia|split; [exact W0|split; [intros; now apply Def|intros; lia]]| |].
    2:{ intros s' (A & C & B). split; [exact A|]. split; [exact C|]. intros _. exact B. }
    intros i s1 Hi (W1 & N1 & D1). cbv zeta.
    assert (DR : forall st s2, is_active st = true -> ws_only n s s2 ->
       wp (a <- st_getStatus (q_bounds s2) i ;; b <- st_getStatus aux i ;;
           if is_sts a st && negb (is_sts b st) then
             '(r, s) <- removeBound junk i true s2 ;; if r =r? SUCCESSFUL_RETURN then Ok (Next s) else Ok (Brk s)
           else Ok (Next s2))
         (fun c => match c with Brk s' => ws_only n s s' | Next s' => ws_only n s s' /\
             (forall k, 0 <= k < n -> k <> i -> bst s' k = bst s2 k) /\
             (bst s' i = bst s2 i \/ bst s' i = ST_INACTIVE) /\
             (bst s' i = st -> zs (st_status aux) i = st) end)).
    { intros st s2 Ast W2. rewrite (ws_status _ _ _ _ W2 Hi), (AS i Hi). cbn [bind].
      destruct (is_sts (bst s2 i) st) eqn:E1; destruct (is_sts (zs (st_status aux) i) st) eqn:E2; cbn [andb negb wp];
        rewrite ?is_sts_true, ?is_sts_false in *.
      2:{ sstep. eapply wp_mono; [apply (ws_remove n s s2 i W2 (ws_hk _ _ _ W2 K) Hi); [congruence|exact (ws_prep _ _ _ W2 P)]|].
          intros [r s3] (-> & W3 & S3). cbn. split; [exact W3|]. split; [|split].
          - intros k Hk Ne. rewrite S3 by exact Hk. destruct (Z.eqb_spec k i); [lia|reflexivity].
          - right. rewrite S3 by exact Hi. now rewrite Z.eqb_refl.
          - rewrite S3 by exact Hi. rewrite Z.eqb_refl. intros <-. discriminate. }
      all: split; [exact W2|]; split; [auto|]; split; [auto|]; intros; congruence. }
    sstep. eapply wp_mono; [apply (DR ST_LOWER s1 eq_refl W1)|]. intros [s2|s2]; [|auto]. intros (W2 & A2 & B2 & C2).
    eapply wp_mono; [apply (DR ST_UPPER s2 eq_refl W2)|]. intros [s3|s3]; [|auto]. intros (W3 & A3 & B3 & C3).
    assert (N3 : bst s3 i <> ST_UNDEFINED).
    { pose proof (N1 i Hi). destruct B3 as [-> | ->]; [destruct B2 as [-> | ->]|]; congruence. }
    split; [exact W3|]. split.
    - intros k Hk. destruct (Z.eq_dec k i) as [->|Ne]; [exact N3|]. rewrite A3, A2 by auto. now apply N1.
    - intros k Hk. destruct (Z.eq_dec k i) as [->|Ne].
      + pose proof (ws_good _ _ _ _ W3 Hi) as GS. destruct GS as [GS|[GS|GS]]; [auto| |contradiction].
        right. destruct (bst s3 i) eqn:Es; try discriminate GS.
        * destruct B3 as [B3|B3]; [|congruence]. symmetry; apply C2. congruence.
        * symmetry. now apply C3.
      + rewrite A3, A2 by lia. apply D1. lia. }
  intros [s2|s2]; [|intros W2; cbn; split; [exact W2|]; split; discriminate].
  intros (W2 & N2 & D2). rewrite (ws_nv _ _ _ W2). sstep.
  apply wp_forb_up with (I := fun i s' => ws_only n s s' /\ (forall k, i <= k < n -> bst s' k = bst s2 k) /\
      (afresh = false \/ (forall i, 0 <= i < n -> bst s i = ST_INACTIVE) -> forall k, 0 <= k < i -> bst s' k = zs (st_status aux) k))
    (J := fun s' => ws_only n s s' ); [lia|split; [exact W2|split; [auto|intros; lia]]| | |].
  - intros i s3 Hi (W3 & U3 & D3). rewrite (ws_status _ _ _ _ W3 Hi), (AS i Hi). cbn [bind].
    assert (Keep : (bst s3 i <> ST_INACTIVE \/ zs (st_status aux) i = ST_INACTIVE) -> afresh = false \/ (forall i, 0 <= i < n -> bst s i = ST_INACTIVE) ->
       forall k, 0 <= k < i + 1 -> bst s3 k = zs (st_status aux) k).
    { intros Hk0 AF k Hk. destruct (Z.eq_dec k i) as [->|Ne]; [|apply D3; auto; lia].
      pose proof (D2 AF i Hi) as X. rewrite <- (U3 i) in X by lia. destruct X as [X|X]; [|exact X].
      destruct Hk0; congruence. }
    destruct (is_sts (bst s3 i) ST_INACTIVE) eqn:E1; destruct (is_sts (zs (st_status aux) i) ST_INACTIVE) eqn:E2; cbn [andb negb];
      rewrite ?is_sts_true, ?is_sts_false in *.
    1,3,4: split; [exact W3|]; split; [intros k Hk; apply U3; lia|]; intros; apply Keep; auto.
    pose proof (GA i ltac:(lia)) as GS. destruct GS as [GS|[GS|GS]]; [contradiction| |destruct (Def i Hi) as (_ & _ & X); contradiction].
    sstep. eapply wp_mono; [apply (ws_add n s s3 i _ W3 Hi E1 GS (ws_prep _ _ _ W3 P))|]. intros [r s4] (-> & W4 & S4). cbn.
    split; [exact W4|]. split.
    + intros k Hk. rewrite S4 by lia. destruct (Z.eqb_spec k i); [lia|]. apply U3; lia.
    + intros AF k Hk. rewrite S4 by lia. destruct (Z.eqb_spec k i); [congruence|]. apply D3; auto; lia.
  - intros s3 (W3 & _ & D3). cbn. split; [exact W3|]. split; [discriminate|]. intros _ AF. split; [exact Na|auto].
  - intros s3 W3. cbn. split; [exact W3|]. split; discriminate.
Qed.

(** ** setupAuxiliaryQP *)
Lemma shallRefactorise_safe n (s : qpb) l0 l1 gb : qwf n s l0 l1 -> gwf gb -> wp (shallRefactorise gb s) (fun _ => True).
Proof.
  intros W G. unfold shallRefactorise. rewrite (w_nv _ _ _ _ W). sstep; [exact I|]. sstep.
  apply wp_for_inv with (I := fun _ => True); [exact I| |intros; exact I].
  intros i d Hi _. sstep. eapply wp_mono; [apply gwf_status, G|]. intros a _. rewrite (w_status _ _ _ _ W i Hi). exact I.
Qed.
Lemma init_wf n b : 0 < n -> st_wf (snd (st_init b n)) [] [] /\ st_n (snd (st_init b n)) = n /\
  (forall i, 0 <= i < n -> zs (st_status (snd (st_init b n))) i = ST_UNDEFINED).
Proof.
  intros Hn. pose proof (wf_new n ltac:(lia)) as H. unfold st_new, st_init in *. destruct (Z.ltb_spec n 0); [lia|]. cbn [snd st_n st_status] in *.
  split; [exact H|]. split; [reflexivity|]. intros i Hi. apply zn_repeat. lia.
Qed.
Lemma setupAll_safe n (s : qpb) : qwf n s [] [] -> (forall i, 0 <= i < n -> bst s i = ST_UNDEFINED) ->
  wp (st_setupAll KBounds (q_bounds s) ST_INACTIVE) (fun '(r, b) => r = SUCCESSFUL_RETURN /\
    qwf n (set_q_bounds b s) (setup_order (q_bounds s)) [] /\ (forall i, 0 <= i < n -> zs (st_status b) i = ST_INACTIVE) /\ same_meta (q_bounds s) b).
Proof.
  intros W U. destruct (setupAll_ok KBounds ST_INACTIVE (q_bounds s) (w_st _ _ _ _ W)) as (b & E & WB & Me & SB); auto.
  { intros i Hi. apply U. rewrite (w_nV _ _ _ _ W) in Hi. exact Hi. }
  rewrite E. cbn. rewrite (w_nV _ _ _ _ W) in SB. split; [reflexivity|]. split; [|auto].
  eapply wf_set_bounds; [exact W|exact WB| |].
  - destruct Me as (-> & _). apply W.
  - intros i Hi. rewrite SB by exact Hi. now left.
Qed.

Lemma setupAuxiliaryQP_safe n (s : qpb) l0 l1 gb : qwf n s l0 l1 -> hk s -> gwf gb ->
  wp (setupAuxiliaryQP junk gb s) (fun '(r, s') => r <> RET_MAX_NWSR_REACHED /\
    sfr s s' /\ sst (set_q_status QPS_PREPARINGAUXILIARYQP s) s' /\ exists l0' l1', qwf n s' l0' l1').
Proof.
  intros W K G. pose proof (w_n _ _ _ _ W) as Hn. unfold setupAuxiliaryQP. cbv zeta.
  assert (W1 : qwf n (set_q_status QPS_PREPARINGAUXILIARYQP s) l0 l1) by (apply (wf_same n s); [exact W|samearr]).
  set (s1 := set_q_status QPS_PREPARINGAUXILIARYQP s) in *.
  assert (K1 : hk s1) by exact K. assert (P1 : q_status s1 = QPS_PREPARINGAUXILIARYQP) by reflexivity.
  assert (F1 : sfr s s1) by (unfold s1; frm).
  sstep. eapply wp_mono; [apply (shallRefactorise_safe n s1 l0 l1 gb W1 G)|]. intros ref _.
  sstep. eapply wp_mono with (P := fun '(r, s') => r <> RET_MAX_NWSR_REACHED /\ sfr s s' /\ sst s1 s' /\ exists l0' l1', qwf n s' l0' l1').
  { destruct ref.
    - rewrite (w_nv _ _ _ _ W1). destruct (init_wf n (q_bounds s1) Hn) as (I1 & I2 & I3).
      set (b0 := snd (st_init (q_bounds s1) n)) in *.
      assert (W2 : qwf n (set_q_bounds b0 s1) [] []).
      { eapply wf_set_bounds; [exact W1|exact I1|exact I2|]. intros i Hi. rewrite I3 by exact Hi. unfold good_status; auto. }
      sstep. eapply wp_mono; [apply (setupSubjectToType_safe n (set_q_bounds b0 s1) [] [] _ _ W2); cbn; [rewrite (w_lb _ _ _ _ W)|rewrite (w_ub _ _ _ _ W)]; lia|].
      intros s3 (W3 & b3 & E3 & SW3). destruct SW3 as (_ & SS3 & _).
      sstep. eapply wp_mono; [apply (setupAll_safe n s3 W3); intros i Hi; rewrite E3; cbn [q_bounds set_q_bounds]; rewrite SS3; now apply I3|].
      intros [r4 b4] (-> & W4 & S4 & _). change (negb _) with false. cbn iota.
      assert (F4 : sfr s (set_q_bounds b4 s3) /\ sst s1 (set_q_bounds b4 s3)) by (subst s3; split; frm).
      destruct F4 as (F4 & T4).
      sstep. eapply wp_mono; [eapply (setupAuxiliaryWorkingSet_safe n _ _ _ gb true W4); auto; [exact (hk_frame _ _ F4 K)|rewrite (f_stat _ _ T4); exact P1]|].
      intros [r5 s5] (WS & _). pose proof (ws_only_frames _ _ _ WS) as (F5 & T5). destruct WS as (m0 & m1 & b5 & R5 & f5 & W5 & _).
      pose proof (sfr_trans _ _ _ F4 F5) as F5'. pose proof (sst_trans _ _ _ T4 T5) as T5'.
      sstep. eapply wp_mono; [apply (computeCholesky_safe n s5 m0 m1 W5 (hk_frame _ _ F5' K))|].
      intros [r6 s6] (W6 & F6 & _ & _ & R6 & h6 & o6 & E6 & _). cbn [wp].
      split; [destruct (r6 =r? _); discriminate|]. split; [eauto using sfr_trans|].
      split; [eapply sst_trans; [exact T5'|]; subst s6; frm|eauto].
    - sstep. eapply wp_mono; [eapply (setupAuxiliaryWorkingSet_safe n _ _ _ gb false W1); auto|].
      intros [r5 s5] (WS & _). pose proof (ws_only_frames _ _ _ WS) as (F5 & T5). destruct WS as (m0 & m1 & b5 & R5 & f5 & W5 & _). cbn [wp].
      split; [discriminate|]. split; [eauto using sfr_trans|]. split; [exact T5|eauto]. }
  intros [r s2] (NR & F2 & T2 & m0 & m1 & W2). destruct (negb _); [cbn; eauto 6|].
  rewrite (w_nv _ _ _ _ W2). sstep. eapply wp_mono with (P := fun y => zlen y = n).
  { apply wp_for_inv with (I := fun y => zlen y = n); [apply W2| |auto]. intros i y Hi Ly. rewrite (w_status _ _ _ _ W2 i Hi). cbn [bind].
    sstep; [|exact Ly]. apply wp_wrv; [lia|congruence]. }
  intros y Ly. cbn beta in Ly. sstep.
  eapply wp_mono; [apply (setupAuxiliaryQPgradient_safe n _ m0 m1); [apply wf_set_y; [exact W2|exact Ly]|exact (hk_frame _ _ F2 K)]|].
  intros s3 (W3 & g & E3). sstep. eapply wp_mono; [apply (setupAuxiliaryQPbounds_safe n s3 m0 m1 false W3)|].
  intros [r4 s4] (W4 & lb & ub & E4). cbn [wp]. subst s4 s3. split; [discriminate|].
  split; [eapply sfr_trans; [exact F2|frm]|]. split; [eapply sst_trans; [exact T2|frm]|eauto].
Qed.

(** ** the step direction *)
Lemma determineDataShift_safe n (s : qpb) l0 l1 (gn : arr) lbn ubn d : qwf n s l0 l1 -> n <= zlen gn -> olen n lbn -> olen n ubn -> dwf n d ->
  wp (determineDataShift gn lbn ubn s d) (fun '(d', _) => dwf n d').
Proof.
  intros W Hg Hl Hu D. unfold determineDataShift. cbv zeta. rewrite (w_nv _ _ _ _ W), (w_nfx _ _ _ _ W).
  assert (SH : forall (new : option arr) (dflt : N) (cur dst : arr), olen n new -> zlen cur = n -> zlen dst = n ->
    wp (for_up 0 n (fun i a => v <- match new with
      | Some a => v <- rd a i ;; c <- rd cur i ;; Ok (v -' c)
      | None => c <- rd cur i ;; Ok (dflt -' c) end ;; wr a i v) dst) (fun a => zlen a = n)).
  { intros new dflt cur dst Hn Hc Hd. apply fill1; [lia| |intros; lia]. intros i Hi. destruct new; cbn in Hn.
    - sstep. sstep; [lia|]. sstep. sstep; [lia|]. exact I.
    - sstep. sstep; [lia|]. exact I. }
  destruct D. sstep. eapply wp_mono; [apply (SH (Some gn) n0 (q_g s) (dl_g d)); auto; apply W|]. intros dg Ldg.
  sstep. eapply wp_mono; [apply (SH lbn); auto; apply W|]. intros dlb Ldlb. sstep. eapply wp_mono; [apply (SH ubn); auto; apply W|]. intros dub Ldub.
  cbn beta in *. sstep. apply wp_forb_inv with (I := fun _ => True) (J := fun _ => True); auto.
  - intros i _ Hi _. sstep. apply (wp_FX _ _ _ _ W i); [exact Hi|]. intros Hin. apply (w_in1 _ _ _ _ W) in Hin. sstep. sstep; [lia|].
    sstep; [exact I|]. sstep. sstep; [lia|]. sstep; exact I.
  - intros _ _. cbn. constructor; auto.
  - intros _ _. cbn. constructor; auto.
Qed.

Lemma sd_xFX_safe n (s : qpb) l0 l1 d isZ : qwf n s l0 l1 -> dwf n d -> wp (sd_xFX s d isZ) (fun a => zlen a = n).
Proof.
  intros W []. unfold sd_xFX. rewrite (w_nfx _ _ _ _ W). pose proof (w_len1 _ _ _ _ W).
  apply wp_for_inv with (I := fun a => zlen a = n); auto. intros i a Hi La. sstep; [apply wp_wrv; [lia|congruence]|].
  sstep. apply (wp_FX _ _ _ _ W i); [exact Hi|]. intros Hin. apply (w_in1 _ _ _ _ W) in Hin. rewrite (w_status _ _ _ _ W _ Hin). cbn [bind].
  sstep. eapply wp_mono with (P := fun _ => True); [sstep; sstep; auto; lia|]. intros v _. apply wp_wrv; [lia|congruence].
Qed.
Lemma sd_rhs_safe n (s : qpb) l0 l1 (dg tmp : arr) : qwf n s l0 l1 -> zlen dg = n -> zlen tmp = n -> wp (sd_rhs s dg tmp) (fun a => zlen a = n).
Proof.
  intros W Hd Ht. unfold sd_rhs. rewrite (w_nfr _ _ _ _ W). pose proof (w_len0 _ _ _ _ W).
  apply wp_for_inv with (I := fun a => zlen a = n); auto. intros i a Hi La.
  sstep. apply (wp_FR _ _ _ _ W i); [exact Hi|]. intros Hin. apply (w_in0 _ _ _ _ W) in Hin. sstep. sstep; [lia|]. apply wp_wrv; [lia|congruence].
Qed.
Lemma maxAbs_safe n (a : arr) r : n <= zlen a -> wp (maxAbs n a r) (fun _ => True).
Proof. intros H. unfold maxAbs. apply wp_for_inv with (I := fun _ => True); auto. intros i v Hi _. sstep. sstep; [lia|exact I]. Qed.
Lemma add_loop k (f : N -> N -> N) (dst src : arr) n : k <= n -> zlen dst = n -> zlen src = n ->
  wp (for_up 0 k (fun i a => u <- rd a i ;; v <- rd src i ;; wr a i (f u v)) dst) (fun a => zlen a = n).
Proof.
  intros Hk Hd Hs. apply wp_for_inv with (I := fun a => zlen a = n); auto. intros i a Hi La. sstep. sstep; [lia|]. sstep. sstep; [lia|].
  apply wp_wrv; [lia|congruence].
Qed.
Lemma backsolve_member n (s : qpb) l0 l1 b t (a : arr) : qwf n s l0 l1 -> zlen a = n -> (match b with Some v => zlen v = n | None => True end) ->
  wp (qb_backsolveR s b t false a) (fun '(_, a') => zlen a' = n).
Proof.
  intros W La Hb. unfold qb_backsolveR. rewrite (w_nv _ _ _ _ W), (w_nfr _ _ _ _ W). pose proof (w_len0 _ _ _ _ W).
  eapply wp_mono; [apply backsolveR_safe; [lia|rewrite (w_R _ _ _ _ W); lia|lia|destruct b; cbn; [lia|exact I]]|]. intros [r a'] L. lia.
Qed.
Lemma sd_round_safe n (s : qpb) l0 l1 d isZ (xFX : arr) r tmp xFR : qwf n s l0 l1 -> hk s -> dwf n d -> zlen xFX = n -> zlen tmp = n -> zlen xFR = n ->
  wp (sd_round s d isZ xFX r (tmp, xFR)) (fun c => match c with
    | Next (t, x) => zlen t = n /\ zlen x = n
    | Brk (rv, t, x) => zlen t = n /\ zlen x = n /\ rv <> RET_MAX_NWSR_REACHED end).
Proof.
  intros W K D LX LT LR. unfold sd_round. rewrite (w_nfr _ _ _ _ W). pose proof (w_len0 _ _ _ _ W) as N0. pose proof (w_len1 _ _ _ _ W) as N1.
  pose proof (w_rep0 _ _ _ _ W) as R0. pose proof (w_rep1 _ _ _ _ W) as R1. pose proof (w_in0 _ _ _ _ W) as I0. pose proof (w_in1 _ _ _ _ W) as I1.
  sstep. eapply wp_mono with (P := fun c => match c with Brk t => zlen t = n | Next t => zlen t = n end).
  { sstep; [|exact LT]. sstep. eapply wp_mono with (P := fun t => zlen t = n).
    - destruct (plainH s && negb isZ && (r =? 0)) eqn:P; [|exact LT]. apply andb_true_iff in P as [P _]. apply andb_true_iff in P as [P _].
      sstep. apply (w_theH n s l0 l1 W _ K P). intros M HM.
      eapply wp_mono; [apply (m_times_idx_safe n M HM _ _ _ _ _ _ _ _ l0 l1); auto; lia|]. intros ? L'; cbn beta in L'; lia.
    - intros t Lt. cbn beta in Lt. sstep. eapply wp_mono; [apply (backsolve_member n s l0 l1 None true t W Lt I)|]. intros [rv t2] L2.
      sstep; [exact L2|]. sstep. eapply wp_mono; [apply (backsolve_member n s l0 l1 None false t2 W L2 I)|]. intros [rv3 t3] L3. sstep; exact L3. }
  intros [t|t] Lt; [|cbn; repeat split; auto; discriminate].
  sstep. eapply wp_mono; [apply (add_loop (zlen l0) (fun u v => u +' v) xFR t n); auto|]. intros x Lx. cbn beta in Lx.
  sstep; [cbn; auto|]. destruct D. sstep. eapply wp_mono; [apply (sd_rhs_safe n s l0 l1 _ _ W); auto|]. intros t2 Lt2. cbn beta in Lt2.
  sstep. eapply wp_mono with (P := fun '(t, _) => zlen t = n).
  { assert (Plain : plainH s = true -> wp (M <- q_theH s ;;
            tmp <- m_times_idx M (st_ina (q_bounds s)) (st_ina (q_bounds s)) 1 nm1 x (zlen l0) n1 t2 (zlen l0) ;;
            tmp <- m_times_idx M (st_ina (q_bounds s)) (st_act (q_bounds s)) 1 nm1 xFX (nFX s) n1 tmp (zlen l0) ;;
            rn <- maxAbs (zlen l0) tmp n0 ;; Ok (tmp, rn)) (fun '(t, _) => zlen t = n)).
    { intros P. sstep. apply (w_theH n s l0 l1 W _ K P). intros M HM.
      sstep. eapply wp_mono; [apply (m_times_idx_safe n M HM _ _ _ _ _ _ _ _ l0 l0); auto; lia|]. intros t3 L3. cbn beta in L3.
      sstep. eapply wp_mono; [apply (m_times_idx_safe n M HM _ _ _ _ _ _ _ _ l0 l1); auto; lia|]. intros t4 L4. cbn beta in L4.
      sstep. eapply wp_mono; [apply maxAbs_safe; lia|]. intros rn _. cbn. lia. }
    destruct (q_htype s) eqn:HT; try (apply Plain; unfold plainH; rewrite HT; reflexivity).
    - exact Lt2.
    - sstep. eapply wp_mono; [apply (add_loop (zlen l0) (fun u v => u -' v) t2 x n); auto|]. intros t3 L3. cbn beta in L3.
      sstep. eapply wp_mono; [apply maxAbs_safe; lia|]. intros rn _. exact L3. }
  intros [t3 rn] L3. sstep; cbn; auto. repeat split; auto; discriminate.
Qed.
Lemma sd_yFX_safe n (s : qpb) l0 l1 d isZ (xFX xFR : arr) : qwf n s l0 l1 -> hk s -> dwf n d -> zlen xFX = n -> zlen xFR = n ->
  wp (sd_yFX s d isZ xFX xFR) (fun a => zlen a = n).
Proof.
  intros W K D LX LR. unfold sd_yFX. rewrite (w_nfx _ _ _ _ W), (w_nfr _ _ _ _ W).
  pose proof (w_len0 _ _ _ _ W) as N0. pose proof (w_len1 _ _ _ _ W) as N1.
  pose proof (w_rep0 _ _ _ _ W) as R0. pose proof (w_rep1 _ _ _ _ W) as R1. pose proof (w_in0 _ _ _ _ W) as I0. pose proof (w_in1 _ _ _ _ W) as I1.
  destruct D. sstep; [cbn; auto|].
  assert (L1 : forall f, wp (for_up 0 (zlen l1) (fun i a =>
        ii <- rd (FX_idx s) i ;; v <- rd (dl_g d) ii ;; w <- rd xFX i ;; wr a i (f v w)) (dl_yFX d)) (fun a => zlen a = n)).
  { intros f. apply wp_for_inv with (I := fun a => zlen a = n); auto. intros i a Hi La.
    sstep. apply (wp_FX _ _ _ _ W i); [exact Hi|]. intros Hin. apply I1 in Hin. sstep. sstep; [lia|]. sstep. sstep; [lia|]. apply wp_wrv; [lia|congruence]. }
  assert (Plain : plainH s = true -> wp (a <- for_up 0 (zlen l1) (fun i a => ii <- rd (FX_idx s) i ;; v <- rd (dl_g d) ii ;; wr a i v) (dl_yFX d) ;;
      M <- q_theH s ;;
      a <- m_times_idx M (st_act (q_bounds s)) (st_ina (q_bounds s)) 1 n1 xFR (zlen l0) n1 a (zlen l1) ;;
      if isZ then Ok a else
      m_times_idx M (st_act (q_bounds s)) (st_act (q_bounds s)) 1 n1 xFX (zlen l1) n1 a (zlen l1)) (fun a => zlen a = n)).
  { intros P. sstep. apply wp_for_inv with (I := fun a => zlen a = n); auto.
    - intros i a Hi La. sstep. apply (wp_FX _ _ _ _ W i); [exact Hi|]. intros Hin. apply I1 in Hin. sstep. sstep; [lia|]. apply wp_wrv; [lia|congruence].
    - intros a La. sstep. apply (w_theH n s l0 l1 W _ K P). intros M HM.
      sstep. eapply wp_mono; [apply (m_times_idx_safe n M HM _ _ _ _ _ _ _ _ l1 l0); auto; lia|]. intros t3 L3. cbn beta in L3.
      sstep; [cbn; lia|]. eapply wp_mono; [apply (m_times_idx_safe n M HM _ _ _ _ _ _ _ _ l1 l1); auto; lia|]. intros ? L'; cbn beta in L'; lia. }
  destruct (q_htype s) eqn:HT; try (apply Plain; unfold plainH; rewrite HT; reflexivity); apply L1.
Qed.
Lemma determineStepDirection_safe n (s : qpb) l0 l1 d isZ : qwf n s l0 l1 -> hk s -> dwf n d ->
  wp (determineStepDirection d isZ s) (fun '(r, d', s') => r <> RET_MAX_NWSR_REACHED /\ dwf n d' /\ qwf n s' l0 l1 /\ exists t, s' = set_q_tmp t s).
Proof.
  intros W K D. unfold determineStepDirection. rewrite (w_nfr _ _ _ _ W). pose proof (w_len0 _ _ _ _ W) as N0.
  sstep. eapply wp_mono; [apply (sd_xFX_safe n s l0 l1 d isZ W D)|]. intros xFX LX. cbn beta in LX. pose proof D as [].
  sstep. eapply wp_mono; [apply (sd_rhs_safe n s l0 l1 _ _ W); auto; apply W|]. intros t Lt. cbn beta in Lt.
  sstep. apply wp_for_inv with (I := fun a => zlen a = n); auto.
  { intros i a Hi La. apply wp_wrv; [lia|congruence]. }
  intros x Lx. sstep.
  apply wp_forb_inv with (I := fun '(t, x) => zlen t = n /\ zlen x = n) (J := fun '(rv, t, x) => zlen t = n /\ zlen x = n /\ rv <> RET_MAX_NWSR_REACHED); auto.
  { intros i [t1 x1] Hi (A & B). eapply wp_mono; [apply (sd_round_safe n s l0 l1); auto|]. intros [[t2 x2]|[[rv t2] x2]] H; exact H. }
  1: intros [t2 x2] (A & B). 2: intros [[rv t2] x2] (A & B & C).
  all: assert (WT : qwf n (set_q_tmp t2 s) l0 l1) by (now apply wf_set_tmp); cbv zeta.
  - change (negb _) with false. cbn iota. sstep. eapply wp_mono; [apply (sd_yFX_safe n _ l0 l1 d isZ _ _ WT); auto|]. intros y Ly. cbn.
    split; [discriminate|]. split; [constructor; auto|]. split; [exact WT|eauto].
  - destruct (negb _). { cbn. split; [exact C|]. split; [constructor; auto|]. split; [exact WT|eauto]. }
    sstep. eapply wp_mono; [apply (sd_yFX_safe n _ l0 l1 d isZ _ _ WT); auto|]. intros y Ly. cbn.
    split; [discriminate|]. split; [constructor; auto|]. split; [exact WT|eauto].
Qed.

(** ** ratio tests and step *)
Lemma performRatioTest_safe n (s : qpb) l0 l1 k idx (l : list Z) (num den : arr) e1 e2 t : qwf n s l0 l1 -> il_rep idx l -> (forall v, In v l -> 0 <= v < n) ->
  k = zlen l -> zlen l <= zlen num -> zlen l <= zlen den ->
  wp (performRatioTest k (il_number idx) (q_bounds s) num den e1 e2 t) (fun '(_, b) => b = -1 \/ In b l).
Proof.
  intros W R Rg -> Hn Hd. unfold performRatioTest. apply wp_for_inv with (I := fun '(_, b) => b = -1 \/ In b l); auto.
  intros i [t' b] Hi Hb. sstep. apply (wp_rdi _ l); auto. intros Hin. pose proof (Rg _ Hin) as HR.
  rewrite (w_type _ _ _ _ W _ HR), (w_status _ _ _ _ W _ HR). cbn [bind]. sstep; [exact Hb|].
  destruct (zs _ _); try exact Hb; (sstep; sstep; [lia|]; sstep; sstep; [lia|]; sstep; cbn; auto).
Qed.
Definition picked (l0 l1 : list Z) (bi : Z) (bs : SubjectToStatus) : Prop :=
  bs = ST_UNDEFINED \/ (bs = ST_INACTIVE /\ In bi l1) \/ (is_active bs = true /\ In bi l0).
Lemma primalNum_safe n (s : qpb) l0 l1 up (num : arr) : qwf n s l0 l1 -> zlen num = n -> wp (primalNum s up num) (fun a => zlen a = n).
Proof.
  intros W L. unfold primalNum. rewrite (w_nfr _ _ _ _ W). pose proof (w_len0 _ _ _ _ W).
  apply wp_for_inv with (I := fun a => zlen a = n); auto. intros i a Hi La.
  sstep. apply (wp_FR _ _ _ _ W i); [exact Hi|]. intros Hin. apply (w_in0 _ _ _ _ W) in Hin.
  sstep. sstep; [rewrite (w_x _ _ _ _ W); lia|]. sstep.
  - sstep. sstep; [rewrite (w_ub _ _ _ _ W); lia|]. apply wp_wrv; [lia|congruence].
  - sstep. sstep; [rewrite (w_lb _ _ _ _ W); lia|]. apply wp_wrv; [lia|congruence].
Qed.
Lemma primalDen_safe n (s : qpb) l0 l1 d up (den : arr) : qwf n s l0 l1 -> dwf n d -> zlen den = n -> wp (primalDen s d up den) (fun a => zlen a = n).
Proof.
  intros W [] L. unfold primalDen. rewrite (w_nfr _ _ _ _ W). pose proof (w_len0 _ _ _ _ W).
  apply wp_for_inv with (I := fun a => zlen a = n); auto. intros i a Hi La.
  sstep. apply (wp_FR _ _ _ _ W i); [exact Hi|]. intros Hin. apply (w_in0 _ _ _ _ W) in Hin.
  sstep; (sstep; sstep; [lia|]; sstep; sstep; [lia|]; apply wp_wrv; [lia|congruence]).
Qed.
Lemma ratioTests_safe n (s : qpb) l0 l1 d : qwf n s l0 l1 -> dwf n d -> wp (ratioTests junk d s) (fun '(_, bi, bs) => picked l0 l1 bi bs).
Proof.
  intros W D. pose proof (w_n _ _ _ _ W) as Hn. unfold ratioTests. cbv zeta. rewrite (w_nv _ _ _ _ W), (w_nfx _ _ _ _ W), (w_nfr _ _ _ _ W).
  pose proof (w_len0 _ _ _ _ W) as N0. pose proof (w_len1 _ _ _ _ W) as N1. pose proof D as [].
  assert (LJ : zlen (junk n) = n) by (apply J; lia).
  sstep. apply wp_for_inv with (I := fun a => zlen a = n); auto.
  { intros i a Hi La. sstep. apply (wp_FX _ _ _ _ W i); [exact Hi|]. intros Hin. apply (w_in1 _ _ _ _ W) in Hin. sstep. sstep; [rewrite (w_y _ _ _ _ W); lia|].
    apply wp_wrv; [lia|congruence]. }
  intros num Lnum. sstep. apply wp_for_inv with (I := fun a => zlen a = n); auto.
  { intros i a Hi La. sstep. sstep; [lia|]. apply wp_wrv; [lia|congruence]. }
  intros den Lden. sstep.
  eapply wp_mono; [apply (performRatioTest_safe n s l0 l1 _ _ l1 num den _ _ _ W (w_rep1 _ _ _ _ W) (w_in1 _ _ _ _ W)); auto; lia|].
  intros [t b] Hb.
  assert (P0 : let '(bi, bs) := if 0 <=? b then (b, ST_INACTIVE) else (-1, ST_UNDEFINED) in picked l0 l1 bi bs).
  { destruct (Z.leb_spec 0 b); unfold picked; [|auto]. destruct Hb; [lia|auto]. }
  destruct (if 0 <=? b then (b, ST_INACTIVE) else (-1, ST_UNDEFINED)) as [bi bs].
  assert (PR : forall up (num den : arr) t bi bs v, zlen num = n -> zlen den = n -> picked l0 l1 bi bs -> is_active v = true ->
    wp (num <- primalNum s up num ;; den <- primalDen s d up den ;;
     '(t, b) <- performRatioTest (zlen l0) (FR_idx s) (q_bounds s) num den (o_epsNum (q_opts s)) (o_epsDen (q_opts s)) t ;;
     Ok (if 0 <=? b then (t, b, v, num, den) else (t, bi, bs, num, den))) (fun '(_, bi, bs, num, den) => picked l0 l1 bi bs /\ zlen num = n /\ zlen den = n)).
  { intros up nu de t' bi' bs' v Ln Ld Pk Av. sstep. eapply wp_mono; [apply (primalNum_safe n s l0 l1 up nu W Ln)|]. intros nu' Ln'.
    sstep. eapply wp_mono; [apply (primalDen_safe n s l0 l1 d up de W D Ld)|]. intros de' Ld'. cbn beta in *.
    sstep. eapply wp_mono; [apply (performRatioTest_safe n s l0 l1 _ _ l0 nu' de' _ _ _ W (w_rep0 _ _ _ _ W) (w_in0 _ _ _ _ W)); auto; lia|].
    intros [t2 b2] Hb2. destruct (Z.leb_spec 0 b2); cbn; [|auto]. split; [|auto]. destruct Hb2; [lia|]. unfold picked; auto. }
  sstep. eapply wp_mono with (P := fun '(_, bi, bs, num, den) => picked l0 l1 bi bs /\ zlen num = n /\ zlen den = n).
  { sstep; [cbn; auto|]. now apply PR. }
  intros [[[[t2 bi2] bs2] num2] den2] (P2 & Ln2 & Ld2). sstep; [exact P2|].
  pose proof (PR true num2 den2 t2 bi2 bs2 ST_UPPER Ln2 Ld2 P2 eq_refl) as H.
  sstep. apply wp_bind_inv in H. eapply wp_mono; [exact H|]. intros nu' H'. apply wp_bind_inv in H'. sstep. eapply wp_mono; [exact H'|]. intros de' H2.
  apply wp_bind_inv in H2. sstep. eapply wp_mono; [exact H2|]. intros [t3 b3] H3. destruct (0 <=? b3); cbn in *; tauto.
Qed.
End QPBSafe3.
