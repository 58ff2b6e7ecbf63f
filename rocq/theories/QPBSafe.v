(** Memory safety of QProblemB for every arithmetic, together with the control
    flow facts (status, flags, counters) that do not depend on numbers. *)
From Verif Require Import Base Types Num Indexlist IndexlistProofs SubjectTo SubjectToProofs SubjectToProofs2 Options Flipper PropFlipper
  Utils Matrices CsLib LinAlg SafeLib MatSafe QProblemB.

Section QPBSafe.
Context {N : Num}.
Notation arr := (list N).
Notation qpb := (qpb N).

(** ** Hessian operations *)
Definition msafe (n : Z) (M : symmat N) : Prop := 0 < n /\ match M with SDense A => dsafe n A | SSparse A => ssafe n A end.

Section Mat.
Variables (n : Z) (M : symmat N).
Hypothesis W0 : msafe n M.
Lemma m_isDiag_safe : wp (m_isDiag M) (fun _ => True).
Proof. destruct W0 as (Hn & W). destruct M; cbn in *; [apply (d_isDiag_safe n)|apply (s_isDiag_safe n)]; auto; lia. Qed.
Lemma m_diag_safe i : 0 <= i < n -> wp (m_diag M i) (fun _ => True).
Proof. intros. destruct W0 as (Hn & W). destruct M; cbn in *; [apply (d_diag_safe n)|apply (s_diag_safe n)]; auto; lia. Qed.
Lemma m_getNorm_safe t : wp (m_getNorm M t) (fun _ => True).
Proof. destruct W0 as (Hn & W). destruct M; cbn in *; [apply (d_getNorm_safe n)|apply (s_getNorm_safe n)]; auto; lia. Qed.
Lemma m_getRow_safe r ic alpha (row : arr) l : il_rep ic l -> (forall v, In v l -> 0 <= v < n) -> 0 <= r < n -> zlen l <= zlen row ->
  wp (m_getRow M r (Some ic) alpha row) (fun r' => zlen r' = zlen row).
Proof. intros. destruct W0 as (Hn & W). destruct M; cbn in *; [apply (d_getRow_safe n A W r ic alpha row l)|apply (s_getRow_safe n A W r ic alpha row l)]; auto; lia. Qed.
Lemma m_getCol_safe c ir alpha (col : arr) l : il_rep ir l -> (forall v, In v l -> 0 <= v < n) -> 0 <= c < n -> zlen l <= zlen col ->
  wp (m_getCol M c ir alpha col) (fun r' => zlen r' = zlen col).
Proof. intros. destruct W0 as (Hn & W). destruct M; cbn in *; [apply (d_getCol_safe n A W c ir alpha col l)|apply (s_getCol_safe n A W c ir alpha col l)]; auto; lia. Qed.
Lemma m_times_safe alpha (x : arr) beta (y : arr) : n <= zlen x -> n <= zlen y ->
  wp (m_times M 1 alpha x n beta y n) (fun y' => zlen y' = zlen y).
Proof. intros. destruct W0 as (Hn & W). destruct M; cbn in *; [apply (d_times_safe n A W)|apply (s_times_safe n A W)]; auto; lia. Qed.
Lemma m_times_idx_safe ir ic alpha (x : arr) xLD beta (y : arr) yLD lr lc : il_rep ir lr -> il_rep ic lc ->
  (forall v, In v lr -> 0 <= v < n) -> (forall v, In v lc -> 0 <= v < n) -> zlen lc <= zlen x -> zlen lr <= zlen y ->
  wp (m_times_idx M ir ic 1 alpha x xLD beta y yLD) (fun y' => zlen y' = zlen y).
Proof.
  intros. destruct W0 as (Hn & W). destruct M; cbn in *;
    [apply (d_times_idx_safe n A W ir ic alpha x xLD beta y yLD lr lc)|apply (s_times_idx_safe n A W ir ic alpha x xLD beta y yLD lr lc)]; auto; lia.
Qed.
Lemma m_addToDiag_safe alpha : wp (m_addToDiag M alpha) (fun '(_, M') => msafe n M').
Proof.
  destruct W0 as (Hn & W). destruct M; cbn in *; sstep;
    (eapply wp_mono; [first [apply (d_addToDiag_safe n A W) | apply (s_addToDiag_safe n A W)] |]);
    intros [r A'] H; (split; [exact Hn|exact H]).
Qed.
End Mat.

(** ** Well-formed objects *)
Definition good_status (v : SubjectToStatus) : Prop := v = ST_INACTIVE \/ is_active v = true \/ v = ST_UNDEFINED.
Record qwf (n : Z) (s : qpb) (l0 l1 : list Z) : Prop := {
  w_n : 0 < n;
  w_nV : st_n (q_bounds s) = n;
  w_st : st_wf (q_bounds s) l0 l1;
  w_good : forall i, 0 <= i < n -> good_status (zs (st_status (q_bounds s)) i);
  w_g : zlen (q_g s) = n; w_lb : zlen (q_lb s) = n; w_ub : zlen (q_ub s) = n;
  w_R : zlen (q_R s) = n * n;
  w_x : zlen (q_x s) = n; w_y : zlen (q_y s) = n; w_tmp : zlen (q_tmp s) = n;
  w_fl : exists g, holds n 0 (q_flip s) g;
  w_H : forall M, q_H s = Some M -> msafe n M
}.
(** H is there when the Hessian type says it is needed *)
Definition hk (s : qpb) : Prop := plainH s = true -> q_H s <> None.

(** ** What the homotopy does not change *)
Definition oframe (o o' : options N) : Prop := exists e, o' = set_o_epsRegularisation e o.
Definition plain (h : HessianType) : bool := negb (is_hst h HST_ZERO) && negb (is_hst h HST_IDENTITY).
Definition hframe (h h' : HessianType) : Prop := h' = h \/ (plain h = true /\ h' = HST_SEMIDEF).
Record sfr (s s' : qpb) : Prop := {
  f_freeH : q_freeH s' = q_freeH s; f_H : q_H s' = q_H s; f_reg : q_regVal s' = q_regVal s;
  f_hc : q_haveChol s' = q_haveChol s; f_cnt : q_count s' = q_count s;
  f_r0 : q_ramp0 s' = q_ramp0 s; f_r1 : q_ramp1 s' = q_ramp1 s;
  f_o : oframe (q_opts s) (q_opts s'); f_h : hframe (q_htype s) (q_htype s') }.
Record sst (s s' : qpb) : Prop := {
  f_stat : q_status s' = q_status s; f_inf : q_infeasible s' = q_infeasible s; f_unb : q_unbounded s' = q_unbounded s;
  f_clk : q_clk s' = q_clk s; f_wsc : q_wsc s' = q_wsc s }.

Lemma oframe_refl o : oframe o o.
Proof. exists (o_epsRegularisation o). destruct o; reflexivity. Qed.
Lemma oframe_trans a b c : oframe a b -> oframe b c -> oframe a c.
Proof. intros [e ->] [f ->]. exists f. reflexivity. Qed.
Lemma hframe_refl h : hframe h h.
Proof. now left. Qed.
Lemma hframe_trans a b c : hframe a b -> hframe b c -> hframe a c.
Proof. intros [-> | [P ->]] [-> | [P' ->]]; unfold hframe; auto. Qed.
Lemma sfr_refl s : sfr s s.
Proof. constructor; auto using oframe_refl, hframe_refl. Qed.
Lemma sfr_trans a b c : sfr a b -> sfr b c -> sfr a c.
Proof. intros [] []. constructor; try congruence; eauto using oframe_trans, hframe_trans. Qed.
Lemma sst_refl s : sst s s.
Proof. constructor; auto. Qed.
Lemma sst_trans a b c : sst a b -> sst b c -> sst a c.
Proof. intros [] []. constructor; congruence. Qed.
Lemma hk_frame s s' : sfr s s' -> hk s -> hk s'.
Proof.
  intros [] K P. rewrite f_H0. apply K. unfold plainH in *. destruct f_h0 as [E|[E _]]; [now rewrite <- E|exact E].
Qed.
Hint Resolve oframe_refl hframe_refl sfr_refl sst_refl : core.

(** length of an optional array *)
Definition olen (n : Z) (v : option arr) : Prop := match v with Some a => n <= zlen a | None => True end.

Record dwf (n : Z) (d : deltas N) : Prop := {
  dw_g : zlen (dl_g d) = n; dw_lb : zlen (dl_lb d) = n; dw_ub : zlen (dl_ub d) = n;
  dw_xFX : zlen (dl_xFX d) = n; dw_xFR : zlen (dl_xFR d) = n; dw_yFX : zlen (dl_yFX d) = n }.

Ltac frm := constructor; cbn; auto.

Section Wf.
Variables (n : Z) (s : qpb) (l0 l1 : list Z).
Hypothesis W : qwf n s l0 l1.

Lemma w_nv : nV s = n. Proof. exact (w_nV _ _ _ _ W). Qed.
Lemma w_nfr : nFR s = zlen l0. Proof. exact (rep_len _ _ (wf_ina _ _ _ (w_st _ _ _ _ W))). Qed.
Lemma w_nfx : nFX s = zlen l1. Proof. exact (rep_len _ _ (wf_act _ _ _ (w_st _ _ _ _ W))). Qed.
Lemma w_rep0 : il_rep (st_ina (q_bounds s)) l0. Proof. exact (wf_ina _ _ _ (w_st _ _ _ _ W)). Qed.
Lemma w_rep1 : il_rep (st_act (q_bounds s)) l1. Proof. exact (wf_act _ _ _ (w_st _ _ _ _ W)). Qed.
Lemma w_in0 v : In v l0 -> 0 <= v < n.
Proof. intros H. rewrite <- (w_nV _ _ _ _ W). exact (wf_range0 _ _ _ _ (w_st _ _ _ _ W) H). Qed.
Lemma w_in1 v : In v l1 -> 0 <= v < n.
Proof. intros H. rewrite <- (w_nV _ _ _ _ W). exact (wf_range1 _ _ _ _ (w_st _ _ _ _ W) H). Qed.
Lemma w_len0 : zlen l0 <= n.
Proof. apply NoDup_len_le; [pose proof (w_n _ _ _ _ W); lia|exact (rep_NoDup _ _ w_rep0)|exact w_in0]. Qed.
Lemma w_len1 : zlen l1 <= n.
Proof. apply NoDup_len_le; [pose proof (w_n _ _ _ _ W); lia|exact (rep_NoDup _ _ w_rep1)|exact w_in1]. Qed.
Lemma w_len0_lt v : In v l1 -> zlen l0 < n.
Proof.
  intros H. apply (NoDup_len_lt n l0 v); [now apply w_in1|exact (rep_NoDup _ _ w_rep0)|exact w_in0|].
  intros H0. exact (wf_disjoint _ _ _ _ (w_st _ _ _ _ W) H0 H).
Qed.
Lemma w_status i : 0 <= i < n -> st_getStatus (q_bounds s) i = Ok (zs (st_status (q_bounds s)) i).
Proof. intros. apply (getStatus_ok _ l0 l1); [apply W|]. now rewrite (w_nV _ _ _ _ W). Qed.
Lemma w_type i : 0 <= i < n -> st_getType (q_bounds s) i = Ok (zt (st_type (q_bounds s)) i).
Proof. intros. apply (getType_ok _ l0 l1); [apply W|]. now rewrite (w_nV _ _ _ _ W). Qed.
Lemma wp_FR i (Q : Z -> Prop) : 0 <= i < zlen l0 -> (In (zn 0 l0 i) l0 -> Q (zn 0 l0 i)) -> wp (rd (FR_idx s) i) Q.
Proof. intros. apply (wp_rdi _ l0); auto using w_rep0. Qed.
Lemma wp_FX i (Q : Z -> Prop) : 0 <= i < zlen l1 -> (In (zn 0 l1 i) l1 -> Q (zn 0 l1 i)) -> wp (rd (FX_idx s) i) Q.
Proof. intros. apply (wp_rdi _ l1); auto using w_rep1. Qed.
Lemma w_theH (Q : symmat N -> Prop) : hk s -> plainH s = true -> (forall M, msafe n M -> Q M) -> wp (q_theH s) Q.
Proof.
  intros K P HQ. unfold q_theH. destruct (q_H s) as [M|] eqn:E; [|now destruct (K P)]. cbn. apply HQ. exact (w_H _ _ _ _ W M E).
Qed.
End Wf.

(** changing fields *)
Lemma wf_set_g n s l0 l1 v : qwf n s l0 l1 -> zlen v = n -> qwf n (set_q_g v s) l0 l1.
Proof. intros [] H. constructor; cbn; auto. Qed.
Lemma wf_set_lb n s l0 l1 v : qwf n s l0 l1 -> zlen v = n -> qwf n (set_q_lb v s) l0 l1.
Proof. intros [] H. constructor; cbn; auto. Qed.
Lemma wf_set_ub n s l0 l1 v : qwf n s l0 l1 -> zlen v = n -> qwf n (set_q_ub v s) l0 l1.
Proof. intros [] H. constructor; cbn; auto. Qed.
Lemma wf_set_x n s l0 l1 v : qwf n s l0 l1 -> zlen v = n -> qwf n (set_q_x v s) l0 l1.
Proof. intros [] H. constructor; cbn; auto. Qed.
Lemma wf_set_y n s l0 l1 v : qwf n s l0 l1 -> zlen v = n -> qwf n (set_q_y v s) l0 l1.
Proof. intros [] H. constructor; cbn; auto. Qed.
Lemma wf_set_tmp n s l0 l1 v : qwf n s l0 l1 -> zlen v = n -> qwf n (set_q_tmp v s) l0 l1.
Proof. intros [] H. constructor; cbn; auto. Qed.
Lemma wf_set_R n s l0 l1 v : qwf n s l0 l1 -> zlen v = n * n -> qwf n (set_q_R v s) l0 l1.
Proof. intros [] H. constructor; cbn; auto. Qed.
Lemma wf_set_bounds n s l0 l1 b l0' l1' : qwf n s l0 l1 -> st_wf b l0' l1' -> st_n b = n ->
  (forall i, 0 <= i < n -> good_status (zs (st_status b) i)) -> qwf n (set_q_bounds b s) l0' l1'.
Proof. intros [] H H1 H2. constructor; cbn; auto. Qed.
Lemma wf_set_flip n s l0 l1 f g : qwf n s l0 l1 -> holds n 0 f g -> qwf n (set_q_flip f s) l0 l1.
Proof. intros [] H. constructor; cbn; eauto. Qed.
(** fields that do not matter *)
Definition same_arrays (s s' : qpb) : Prop :=
  q_bounds s' = q_bounds s /\ q_g s' = q_g s /\ q_lb s' = q_lb s /\ q_ub s' = q_ub s /\ q_R s' = q_R s /\
  q_x s' = q_x s /\ q_y s' = q_y s /\ q_tmp s' = q_tmp s /\ q_flip s' = q_flip s /\ q_H s' = q_H s.
Lemma wf_same n s s' l0 l1 : qwf n s l0 l1 -> same_arrays s s' -> qwf n s' l0 l1.
Proof.
  intros [] (E1 & E2 & E3 & E4 & E5 & E6 & E7 & E8 & E9 & E10).
  constructor; rewrite ?E1, ?E2, ?E3, ?E4, ?E5, ?E6, ?E7, ?E8, ?E9, ?E10; auto.
Qed.
Ltac samearr := unfold same_arrays; cbn; tauto.

(** ** types of the bounds *)
Definition same_ws (b b' : subjectTo) : Prop :=
  st_n b' = st_n b /\ st_status b' = st_status b /\ st_ina b' = st_ina b /\ st_act b' = st_act b /\ zlen (st_type b') = zlen (st_type b).
Lemma same_ws_wf b b' l0 l1 : same_ws b b' -> st_wf b l0 l1 -> st_wf b' l0 l1.
Proof. intros (E1 & E2 & E3 & E4 & E5) []. constructor; rewrite ?E1, ?E2, ?E3, ?E4, ?E5; auto. Qed.
Lemma same_ws_trans a b c : same_ws a b -> same_ws b c -> same_ws a c.
Proof. unfold same_ws. intros (? & ? & ? & ? & ?) (? & ? & ? & ? & ?). repeat split; congruence. Qed.
Lemma b_setType_safe n b i t : zlen (st_type b) = n -> st_n b = n -> 0 <= i < n ->
  wp (b_setType b i t) (fun b' => same_ws b b').
Proof.
  intros L E Hi. unfold b_setType, st_setType. rewrite E. destruct (Z.leb_spec 0 i); [|lia]. destruct (Z.ltb_spec i n); [|lia]. cbn [andb].
  rewrite wr_ok by lia. cbn. unfold same_ws; cbn. rewrite zlen_zupd. auto.
Qed.
Lemma someFinite_safe v n fin : olen n v -> wp (someFinite v n fin) (fun _ => True).
Proof.
  intros H. unfold someFinite. destruct v as [a|]; [|exact I]. cbn in H. sstep.
  apply wp_forb_inv with (I := fun _ => True) (J := fun _ => True); try (intros; exact I).
  intros i _ Hi _. sstep. sstep; [lia|]. sstep; exact I.
Qed.
Lemma setupSubjectToType_safe n s l0 l1 lbn ubn : qwf n s l0 l1 -> olen n lbn -> olen n ubn ->
  wp (setupSubjectToType lbn ubn s) (fun s' => qwf n s' l0 l1 /\ exists b, s' = set_q_bounds b s /\ same_ws (q_bounds s) b).
Proof.
  intros W Hl Hu. unfold setupSubjectToType. rewrite (w_nv _ _ _ _ W). sstep. eapply wp_mono; [now apply someFinite_safe|]. intros lo _.
  sstep. eapply wp_mono; [now apply someFinite_safe|]. intros up _. sstep.
  set (b0 := st_setNoUpper _ _).
  assert (B0 : same_ws (q_bounds s) b0) by (unfold same_ws; cbn; auto).
  pose proof (wf_type _ _ _ (w_st _ _ _ _ W)) as T. pose proof (w_nV _ _ _ _ W) as E.
  assert (ST : forall i b t, 0 <= i < n -> same_ws (q_bounds s) b -> wp (b_setType b i t) (same_ws (q_bounds s))).
  { intros i b t Hi Hb. destruct Hb as (E1 & E2 & E3 & E4 & E5). eapply wp_mono; [apply (b_setType_safe n); auto; congruence|].
    intros b' H. eapply same_ws_trans; [|exact H]. unfold same_ws; auto. }
  eapply wp_mono with (P := same_ws (q_bounds s)).
  { destruct lbn as [ln|], ubn as [un|]; cbn in Hl, Hu.
    2,3,4: apply wp_for_inv with (I := same_ws (q_bounds s)); auto.
    apply wp_for_inv with (I := same_ws (q_bounds s)); auto. intros i b Hi Hb.
    sstep. sstep; [lia|]. sstep. sstep; [lia|]. sstep; [now apply ST|].
    sstep. sstep; [rewrite (w_lb _ _ _ _ W); lia|]. sstep. sstep; [rewrite (w_ub _ _ _ _ W); lia|]. sstep; now apply ST. }
  intros b Hb. cbn [wp]. split; [|eauto].
  destruct Hb as (E1 & E2 & E3 & E4 & E5). apply (wf_set_bounds n s l0 l1); auto.
  - apply (same_ws_wf (q_bounds s)); [unfold same_ws; auto|apply W].
  - congruence.
  - intros i Hi. rewrite E2. now apply W.
Qed.
Lemma nFV_safe n s l0 l1 : qwf n s l0 l1 -> wp (nFV s) (fun _ => True).
Proof.
  intros W. unfold nFV, st_getNumberOfType. rewrite (w_nV _ _ _ _ W). sstep; [exact I|].
  apply wp_for_inv with (I := fun _ => True); auto. intros i c Hi _. sstep. sstep; [|exact I].
  rewrite (wf_type _ _ _ (w_st _ _ _ _ W)), (w_nV _ _ _ _ W). exact Hi.
Qed.

(** ** determineHessianType *)
Lemma determineHessianType_safe n s l0 l1 : qwf n s l0 l1 ->
  wp (determineHessianType s) (fun '(r, s') => qwf n s' l0 l1 /\ hk s' /\
    exists h o, s' = set_q_htype h (set_q_opts o s) /\
      (o = q_opts s \/ o = set_o_numRegularisationSteps 1 (set_o_enableRegularisation true (q_opts s)))).
Proof.
  intros W. unfold determineHessianType.
  assert (E : forall h, exists o, ensure_regularisation (set_q_htype h s) = set_q_htype h (set_q_opts o s) /\
      (o = q_opts s \/ o = set_o_numRegularisationSteps 1 (set_o_enableRegularisation true (q_opts s)))).
  { intros h. unfold ensure_regularisation. cbn [q_opts set_q_htype].
    destruct (o_enableRegularisation (q_opts s)); [exists (q_opts s)|eexists]; (split; [reflexivity|auto]). }
  assert (G : forall h o, qwf n (set_q_htype h (set_q_opts o s)) l0 l1) by (intros; apply (wf_same n s); [exact W|samearr]).
  assert (S0 : forall h, set_q_htype h s = set_q_htype h (set_q_opts (q_opts s) s)) by reflexivity.
  assert (S1 : s = set_q_htype (q_htype s) (set_q_opts (q_opts s) s)) by (destruct s; reflexivity).
  assert (Rest : wp (match q_H s with
    | None => Ok (SUCCESSFUL_RETURN, ensure_regularisation (set_q_htype HST_ZERO s))
    | Some M =>
        let s := set_q_htype HST_POSDEF s in
        d <- m_isDiag M ;;
        if negb d then Ok (SUCCESSFUL_RETURN, s) else
        c <- forb_up 0 (nV s) (fun i '(isId, isZ) =>
               curDiag <- m_diag M i ;;
               if curDiag >=' nINFTY then Ok (Brk (RET_DIAGONAL_NOT_INITIALISED, s)) else
               if curDiag <' -' nZERO then
                 let s := set_q_htype HST_INDEF s in
                 Ok (Brk (if o_enableFlippingBounds (q_opts s) then SUCCESSFUL_RETURN else RET_HESSIAN_INDEFINITE, s))
               else
                 Ok (Next (if nabs (curDiag -' n1) >' nEPS then false else isId,
                           if nabs curDiag >' nEPS then false else isZ))) (true, true) ;;
        match c with
        | Brk e => Ok e
        | Next (isId, isZ) =>
            let s := if isId : bool then set_q_htype HST_IDENTITY s else s in
            let s := if isZ : bool then ensure_regularisation (set_q_htype HST_ZERO s) else s in
            Ok (SUCCESSFUL_RETURN, s)
        end
    end) (fun '(r, s') => qwf n s' l0 l1 /\ hk s' /\
    exists h o, s' = set_q_htype h (set_q_opts o s) /\
      (o = q_opts s \/ o = set_o_numRegularisationSteps 1 (set_o_enableRegularisation true (q_opts s))))).
  { destruct (q_H s) as [M|] eqn:HM.
    2:{ destruct (E HST_ZERO) as (o & -> & Ho). cbn. split; [apply G|]. split; [intros P; discriminate P|eauto]. }
    assert (KM : forall h o, hk (set_q_htype h (set_q_opts o s))) by (intros h o P; cbn; congruence).
    cbv zeta. sstep. eapply wp_mono; [apply (m_isDiag_safe n); exact (w_H _ _ _ _ W M HM)|]. intros d _.
    assert (F : forall h (r : returnValue), wp (Ok (r, set_q_htype h s)) (fun '(r, s') => qwf n s' l0 l1 /\ hk s' /\
      exists h o, s' = set_q_htype h (set_q_opts o s) /\
      (o = q_opts s \/ o = set_o_numRegularisationSteps 1 (set_o_enableRegularisation true (q_opts s))))).
    { intros h r. cbn [wp]. rewrite S0. split; [apply G|]. split; [apply KM|]. eauto. }
    sstep; [apply F|]. sstep.
    apply wp_forb_inv with (I := fun _ => True) (J := fun e => exists h r, e = (r, set_q_htype h s)); auto.
    - intros i [isId isZ] Hi _. cbn [q_bounds nV set_q_htype] in Hi. pose proof (w_nV _ _ _ _ W) as En. unfold nV in Hi. cbn in Hi. rewrite En in Hi.
      sstep. eapply wp_mono; [apply (m_diag_safe n); [exact (w_H _ _ _ _ W M HM)|exact Hi]|]. intros cd _.
      sstep; [cbn; eauto|]. sstep; [|exact I]. cbn. exists HST_INDEF. eexists. reflexivity.
    - intros [isId isZ] _. destruct isZ; [|destruct isId; apply F].
      assert (X : exists o, ensure_regularisation (set_q_htype HST_ZERO (if isId then set_q_htype HST_IDENTITY (set_q_htype HST_POSDEF s) else set_q_htype HST_POSDEF s)) =
         set_q_htype HST_ZERO (set_q_opts o s) /\ (o = q_opts s \/ o = set_o_numRegularisationSteps 1 (set_o_enableRegularisation true (q_opts s)))).
      { destruct (E HST_ZERO) as (o & Eo & Ho). exists o. split; [|exact Ho]. rewrite <- Eo. destruct isId; reflexivity. }
      destruct X as (o & -> & Ho). cbn [wp]. split; [apply G|]. split; [apply KM|]. eauto.
    - intros e (h & r & ->). apply F. }
  assert (D : wp (Ok (SUCCESSFUL_RETURN, s)) (fun '(r, s') => hk s' -> qwf n s' l0 l1 /\ hk s' /\
    exists h o, s' = set_q_htype h (set_q_opts o s) /\
      (o = q_opts s \/ o = set_o_numRegularisationSteps 1 (set_o_enableRegularisation true (q_opts s))))).
  { cbn. intros K. split; [exact W|]. split; [exact K|]. exists (q_htype s), (q_opts s). auto. }
  assert (KS : forall M, q_H s = Some M -> hk s) by (intros M HM P; congruence).
  destruct (q_htype s) eqn:HT; try exact Rest.
  - unfold ensure_regularisation. cbn [wp]. destruct (o_enableRegularisation (q_opts s)) eqn:ER.
    + apply D. intros P. unfold plainH in P. rewrite HT in P. discriminate P.
    + split; [apply (wf_same n s); [exact W|samearr]|]. split; [intros P; unfold plainH in P; cbn in P; rewrite HT in P; discriminate P|].
      exists (q_htype s). eexists. split; [|right; reflexivity]. destruct s; reflexivity.
  - apply D. intros P. unfold plainH in P. rewrite HT in P. discriminate P.
  - destruct (q_H s) eqn:HM; [|exact Rest]. apply D. eapply KS. reflexivity.
  - destruct (q_H s) eqn:HM; [|exact Rest]. apply D. eapply KS. reflexivity.
  - destruct (q_H s) eqn:HM; [|exact Rest]. apply D. eapply KS. reflexivity.
  - destruct (q_H s) eqn:HM; [|exact Rest]. apply D. eapply KS. reflexivity.
Qed.

(** ** regularisation and factorisation *)
Lemma regulariseHessian_safe n s l0 l1 : qwf n s l0 l1 -> hk s ->
  wp (regulariseHessian s) (fun '(r, s') => qwf n s' l0 l1 /\ hk s' /\
    exists v M, s' = set_q_H M (set_q_regVal v s) /\ (o_enableRegularisation (q_opts s) = false -> s' = s)).
Proof.
  intros W K. unfold regulariseHessian.
  assert (Id : qwf n s l0 l1 /\ hk s /\ exists v M, s = set_q_H M (set_q_regVal v s) /\ (o_enableRegularisation (q_opts s) = false -> s = s)).
  { split; [exact W|]. split; [exact K|]. exists (q_regVal s), (q_H s). split; [destruct s; reflexivity|auto]. }
  destruct (o_enableRegularisation (q_opts s)) eqn:ER; [|exact Id]. cbn [negb].
  destruct (is_hst (q_htype s) HST_IDENTITY) eqn:HI; [exact Id|]. destruct (usingReg s); [exact Id|].
  destruct (is_hst (q_htype s) HST_ZERO) eqn:HZ.
  - sstep. eapply wp_mono; [apply getNorm_safe; [lia|rewrite (w_nv _ _ _ _ W), (w_g _ _ _ _ W); lia]|]. intros v _. cbn [wp].
    split; [apply (wf_same n s); [exact W|samearr]|]. split; [exact K|]. eexists. exists (q_H s). split; [|discriminate]. reflexivity.
  - assert (P : plainH s = true) by (unfold plainH; rewrite HI, HZ; reflexivity).
    sstep. eapply (w_theH n s l0 l1 W); [exact K|exact P|]. intros M HM. sstep. eapply wp_mono; [apply (m_getNorm_safe n M HM)|].
    intros v _. sstep. eapply wp_mono; [apply (m_addToDiag_safe n M HM)|]. intros [r M'] HM'. cbn [wp].
    split. { apply (wf_same n (set_q_H (Some M') s)); [|samearr]. destruct W. constructor; cbn; auto. intros M0 E0. injection E0 as <-. exact HM'. }
    split; [intros _; discriminate|]. eexists. exists (Some M'). split; [|discriminate]. reflexivity.
Qed.

Lemma zero_loop m (R : arr) (Q : arr -> Prop) : m <= zlen R -> (forall R', zlen R' = zlen R -> Q R') -> wp (for_up 0 m (fun i R => wr R i n0) R) Q.
Proof. intros H HQ. apply wp_for_len; auto. intros i s Hi Ls. apply wp_wrv; [lia|congruence]. Qed.
Lemma diag_idx n i : 0 <= i < n -> 0 <= i + n * i < n * n.
Proof. intros. nia. Qed.
Lemma cm_idx n p q : 0 <= p < n -> 0 <= q < n -> 0 <= p + n * q < n * n.
Proof. intros. nia. Qed.
Lemma at_off_safe (a : arr) off f (Q : arr -> Prop) : 0 <= off <= zlen a ->
  (forall b, zlen b = zlen a - off -> wp (f b) (fun b' => zlen b' = zlen b)) -> (forall a', zlen a' = zlen a -> Q a') -> wp (at_off a off f) Q.
Proof.
  intros Ho Hf HQ. unfold at_off. destruct (Z.ltb_spec off 0); [lia|]. destruct (Z.ltb_spec (zlen a) off); [lia|]. cbn [orb].
  assert (Lb : zlen (skipn (Z.to_nat off) a) = zlen a - off) by (unfold zlen in *; rewrite skipn_length; lia).
  sstep. eapply wp_mono; [apply Hf, Lb|]. intros b Hb. cbn [wp]. apply HQ. rewrite zlen_app, Hb, Lb. unfold zlen in *. rewrite firstn_length. lia.
Qed.

Lemma plain_other h : h <> HST_ZERO -> h <> HST_IDENTITY -> plain h = true.
Proof. destruct h; try reflexivity; congruence. Qed.

Lemma computeCholesky_safe0 n s l0 l1 : qwf n s l0 l1 -> hk s \/ l0 = [] ->
  wp (computeCholesky s) (fun '(r, s') => qwf n s' l0 l1 /\ sfr s s' /\ r <> RET_MAX_NWSR_REACHED /\
    (r = SUCCESSFUL_RETURN \/ r = RET_CHOLESKY_OF_ZERO_HESSIAN \/ r = RET_HESSIAN_NOT_SPD) /\
    exists R h o, s' = set_q_htype h (set_q_opts o (set_q_R R s)) /\
      (r = SUCCESSFUL_RETURN -> h = q_htype s /\ o = q_opts s)).
Proof.
  intros W K. pose proof (w_n _ _ _ _ W) as Hn. unfold computeCholesky. rewrite (w_nv _ _ _ _ W). sstep.
  apply zero_loop; [rewrite (w_R _ _ _ _ W); lia|]. intros R LR. rewrite (w_R _ _ _ _ W) in LR.
  assert (OK : forall r R', zlen R' = n * n -> r = SUCCESSFUL_RETURN \/ r = RET_CHOLESKY_OF_ZERO_HESSIAN \/ r = RET_HESSIAN_NOT_SPD ->
    qwf n (set_q_R R' s) l0 l1 /\ sfr s (set_q_R R' s) /\ r <> RET_MAX_NWSR_REACHED /\
    (r = SUCCESSFUL_RETURN \/ r = RET_CHOLESKY_OF_ZERO_HESSIAN \/ r = RET_HESSIAN_NOT_SPD) /\
    exists R h o, set_q_R R' s = set_q_htype h (set_q_opts o (set_q_R R s)) /\ (r = SUCCESSFUL_RETURN -> h = q_htype s /\ o = q_opts s)).
  { intros r R' L' Hr. split; [now apply wf_set_R|]. split; [frm|]. split; [destruct Hr as [-> | [-> | ->]]; discriminate|]. split; [exact Hr|].
    exists R', (q_htype s), (q_opts s). split; [destruct s; reflexivity|auto]. }
  assert (Rest : plainH s = true -> wp (if nFR s <=? 0 then Ok (SUCCESSFUL_RETURN, set_q_R R s) else
      M <- q_theH s ;;
      R <- for_up 0 (nFR s) (fun j R =>
             c <- rd (FR_idx s) j ;; at_off R (j * n) (m_getCol M c (st_ina (q_bounds s)) n1)) R ;;
      '(info, R) <- dpotrf (nFR s) R n ;;
      if 0 <? info then
        r0 <- rd R 0 ;;
        let o := q_opts s in
        let o := if r0 <' n0 then
                   set_o_epsRegularisation
                     (getMin (-' r0 +' o_epsRegularisation o) (nsqrt (nabs (o_epsRegularisation o)))) o
                 else o in
        Ok (RET_HESSIAN_NOT_SPD, set_q_htype HST_SEMIDEF (set_q_opts o (set_q_R R s)))
      else
        R <- for_up 0 (nFR s - 1) (fun i R => wr R (i + 1 + n * i) n0) R ;;
        Ok (SUCCESSFUL_RETURN, set_q_R R s)) (fun '(r, s') => qwf n s' l0 l1 /\ sfr s s' /\ r <> RET_MAX_NWSR_REACHED /\
    (r = SUCCESSFUL_RETURN \/ r = RET_CHOLESKY_OF_ZERO_HESSIAN \/ r = RET_HESSIAN_NOT_SPD) /\
    exists R h o, s' = set_q_htype h (set_q_opts o (set_q_R R s)) /\
      (r = SUCCESSFUL_RETURN -> h = q_htype s /\ o = q_opts s))).
  { intros P. rewrite (w_nfr _ _ _ _ W). pose proof (w_len0 _ _ _ _ W) as L0. destruct (Z.leb_spec (zlen l0) 0) as [|Pos]; [apply OK; auto|].
    assert (K1 : hk s) by (destruct K as [K | ->]; [exact K|unfold zlen in Pos; cbn in Pos; lia]).
    sstep. eapply (w_theH n s l0 l1 W); [exact K1|exact P|]. intros M HM. sstep. apply wp_for_len.
    { intros j R1 Hj L1. sstep. eapply (wp_FR _ _ _ _ W); [exact Hj|]. intros Hin. assert (0 <= j * n <= n * n - n) by nia.
      apply at_off_safe; [lia| |congruence]. intros b Lb. apply (m_getCol_safe n M HM _ _ _ _ l0); [exact (w_rep0 _ _ _ _ W)|exact (w_in0 _ _ _ _ W)| |lia].
      now apply (w_in0 _ _ _ _ W). }
    intros R1 L1. sstep. eapply wp_mono; [apply dpotrf_safe; [split; [apply zlen_nonneg|exact L0]|lia]|]. intros [info R2] (Hi & L2).
    destruct (Z.ltb_spec 0 info).
    - sstep. sstep; [nia|]. intros. cbn [wp]. split; [apply (wf_same n (set_q_R R2 s)); [apply wf_set_R; auto; lia|samearr]|].
      split. { constructor; cbn; auto. - destruct (_ <' _); [eexists; reflexivity|auto]. - right. split; [exact P|reflexivity]. }
      split; [discriminate|]. split; [auto|]. eexists _, _, _. split; [reflexivity|discriminate].
    - sstep. apply wp_for_len.
      + intros i R3 Hi3 L3. apply wp_wrv; [|congruence]. replace (i + 1 + n * i) with ((i + 1) + n * i) by ring.
        rewrite L3, L2, L1, LR. apply cm_idx; lia.
      + intros R3 L3. cbn [wp]. apply OK; auto. lia. }
  assert (Dg : forall v, wp (for_up 0 n (fun i R => wr R (i + n * i) v) R) (fun R' => zlen R' = n * n)).
  { intros v. apply wp_for_len; [|congruence]. intros i R1 Hi L1. apply wp_wrv; [|congruence]. rewrite L1, LR. now apply diag_idx. }
  destruct (q_htype s) eqn:HT; try (apply Rest; unfold plainH; rewrite HT; reflexivity).
  - sstep; [|apply OK; auto]. sstep. eapply wp_mono; [apply Dg|]. intros R' L'. apply OK; auto.
  - sstep. eapply wp_mono; [apply Dg|]. intros R' L'. apply OK; auto.
Qed.
Lemma computeCholesky_safe n s l0 l1 : qwf n s l0 l1 -> hk s ->
  wp (computeCholesky s) (fun '(r, s') => qwf n s' l0 l1 /\ sfr s s' /\ r <> RET_MAX_NWSR_REACHED /\
    (r = SUCCESSFUL_RETURN \/ r = RET_CHOLESKY_OF_ZERO_HESSIAN \/ r = RET_HESSIAN_NOT_SPD) /\
    exists R h o, s' = set_q_htype h (set_q_opts o (set_q_R R s)) /\
      (r = SUCCESSFUL_RETURN -> h = q_htype s /\ o = q_opts s)).
Proof. intros W K. apply computeCholesky_safe0; auto. Qed.
End QPBSafe.
