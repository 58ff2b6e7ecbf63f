(** C51: which calls treat a null pointer for lb, ub, lbA or ubA as the absence of
    that limit. *)
From Verif Require Import Base Types Num Options Indexlist SubjectTo Flipper Matrices LinAlg LinSpec QProblemB QProblem QProblem2 QProblem3 QProblem4 QProblem5 SafeLib QPBSafe QPBSafe2 QPBSafe5 QPBSafe6 PropFlipper QPFrame PropBudget PropAux.
From Coq Require Import Reals Lra QArith.
Local Open Scope Z_scope.

(** ** Initialisation, for any numbers: the same as passing the infinite limit *)
Section Init.
Context {N : Num}.
Notation arr := (list N).
Notation qpb := (qpb N).
Notation qp := (qp N).
Variable junk : Z -> arr.
Variable cpu : Z -> bool.

(** what the caller would have to pass to say the same *)
Definition spelled (o : option arr) (d : N) (n : Z) : option arr :=
  match o with None => Some (repeat d (Z.to_nat n)) | Some a => Some a end.

Lemma fill_ub (d : N) k : forall i (a : arr), 0 <= i <= zlen a -> zlen a < i + Z.of_nat k ->
  for_up_n k i (fun i a => wr a i d) a = UB.
Proof.
  induction k as [|k IH]; intros i a Hi H; [lia|]. cbn [for_up_n]. destruct (Z.eq_dec i (zlen a)).
  - unfold wr, inb. destruct (Z.ltb_spec i (zlen a)); [lia|]. now rewrite andb_false_r.
  - rewrite wr_ok by lia. cbn [bind]. apply IH; rewrite zlen_zupd; lia.
Qed.
Lemma skip_nth (d : N) k : forall (l : arr) i, nth i (skipn k l) d = nth (k + i) l d.
Proof. induction k as [|k IH]; intros [|a l] i; cbn; auto. now destruct i. Qed.
Lemma setVec_null (dst : arr) n d : setVec dst None n d = setVec dst (spelled None d n) n d.
Proof.
  cbn [spelled]. unfold setVec, memcpy. rewrite zlen_repeat.
  destruct (Z.ltb_spec (Z.of_nat (Z.to_nat n)) n); [lia|]. cbn [orb]. destruct (Z.ltb_spec (zlen dst) n) as [L|L].
  - apply fill_ub; pose proof (zlen_nonneg dst); lia.
  - destruct (Z.le_gt_cases n 0) as [Z0|Z0].
    { unfold for_up. replace (Z.to_nat (n - 0)) with 0%nat by lia. replace (Z.to_nat n) with 0%nat by lia. reflexivity. }
    apply wp_inv_eq. apply wp_for_up with (I := fun i x => zlen x = zlen dst /\ forall k, 0 <= k < zlen dst -> zn d x k = if k <? i then d else zn d dst k); [lia| | |].
    + split; [reflexivity|]. intros k Hk. destruct (Z.ltb_spec k 0); [lia|reflexivity].
    + intros i x Hi [Lx A]. apply wp_wr; [lia|]. rewrite zlen_zupd. split; [exact Lx|]. intros k Hk. rewrite zn_zupd by lia.
      destruct (Z.eqb_spec k i); destruct (Z.ltb_spec k (i + 1)); try lia; [reflexivity| |].
      * rewrite A by lia. destruct (Z.ltb_spec k i); [reflexivity|lia].
      * rewrite A by lia. destruct (Z.ltb_spec k i); [lia|reflexivity].
    + intros x [Lx A].
      assert (LS : zlen (skipn (Z.to_nat n) dst) = zlen dst - n) by (unfold zlen in *; rewrite skipn_length; lia).
      rewrite firstn_all2 by (rewrite repeat_length; lia).
      apply (list_ext_zn d); [rewrite zlen_app, zlen_repeat, LS; lia|]. intros k Hk. rewrite A by lia.
      destruct (Z.ltb_spec k n).
      * rewrite zn_app1 by (rewrite zlen_repeat; lia). symmetry. apply zn_repeat. lia.
      * rewrite zn_app2 by (rewrite zlen_repeat; lia). rewrite zlen_repeat. unfold zn. rewrite skip_nth. f_equal. lia.
Qed.
Lemma setVec_spelled (dst : arr) o n d : setVec dst (spelled o d n) n d = setVec dst o n d.
Proof. destruct o; [reflexivity|]. symmetry. apply setVec_null. Qed.

Lemma init_n st n : n = st_n st -> st_n (snd (st_init st n)) = n.
Proof. intros ->. unfold st_init. destruct (_ <? _); reflexivity. Qed.
Lemma setupQPdata_spelled h g lb ub (s : qpb) :
  setupQPdata h g (spelled lb (-' nINFTY) (nV s)) (spelled ub nINFTY (nV s)) s = setupQPdata h g lb ub s.
Proof.
  assert (V : nV (qb_setH h s) = nV s) by (unfold qb_setH; destruct h as [[m|]|[a|]]; try reflexivity; destruct (is_hst _ _); reflexivity).
  unfold setupQPdata. rewrite <- V. destruct g; [|reflexivity]. now rewrite !setVec_spelled.
Qed.
Theorem C51_init_QProblemB fuel h g lb ub nWSR xOpt yOpt gB Rin (s : qpb) :
  qb_init junk cpu fuel h g lb ub nWSR xOpt yOpt gB Rin s =
  qb_init junk cpu fuel h g (spelled lb (-' nINFTY) (nV s)) (spelled ub nINFTY (nV s)) nWSR xOpt yOpt gB Rin s.
Proof.
  unfold qb_init. destruct (nV s =? 0) eqn:Z0; [reflexivity|].
  assert (E : pc (if isInitialised s then ' (_, s0) <- qb_reset s;; Ok s0 else Ok s) (fun s' => nV s' = nV s)).
  { destruct (isInitialised s); [|reflexivity]. unfold qb_reset. rewrite Z0. cbv zeta. apply pc_assoc, pc_any. intro R. cbn [bind pc]. unfold nV. cbn [q_bounds]. now apply init_n. }
  destruct (if isInitialised s then _ else _) as [s1| |]; [|reflexivity..]. cbn [bind pc] in *. destruct (guessDefined gB (nV s1)) as [ok| |]; [|reflexivity..]. cbn [bind].
  destruct (negb ok); [reflexivity|]. destruct (match xOpt with Some _ => _ | None => _ end); [reflexivity|]. destruct (match Rin with Some _ => _ | None => _ end); [reflexivity|].
  rewrite <- E. now rewrite setupQPdata_spelled.
Qed.

Lemma p_setupQPdata_spelled h g A lb ub lbA ubA (s : qp) :
  p_setupQPdata junk h g A (spelled lb (-' nINFTY) (pV s)) (spelled ub nINFTY (pV s)) (spelled lbA (-' nINFTY) (pC s)) (spelled ubA nINFTY (pC s)) s =
  p_setupQPdata junk h g A lb ub lbA ubA s.
Proof.
  unfold p_setupQPdata. change (pV s) with (nV (p_b s)). rewrite setupQPdata_spelled. destruct (setupQPdata h g lb ub (p_b s)) as [[r b]| |]; [|reflexivity..].
  cbn [bind]. cbv zeta. change (pC (set_p_b b s)) with (pC s). now rewrite !setVec_spelled.
Qed.
Theorem C51_init_QProblem fuel h g A lb ub lbA ubA nWSR xOpt yOpt gB gC Rin (s : qp) :
  p_init junk cpu fuel h g A lb ub lbA ubA nWSR xOpt yOpt gB gC Rin s =
  p_init junk cpu fuel h g A (spelled lb (-' nINFTY) (pV s)) (spelled ub nINFTY (pV s))
    (spelled lbA (-' nINFTY) (pC s)) (spelled ubA nINFTY (pC s)) nWSR xOpt yOpt gB gC Rin s.
Proof.
  unfold p_init. destruct (pV s =? 0) eqn:Z0; [reflexivity|].
  assert (E : pc (if isInitialised (p_b s) then ' (_, s0) <- p_reset s;; Ok s0 else Ok s) (fun s' => pV s' = pV s /\ pC s' = pC s)).
  { destruct (isInitialised _); [|now split]. unfold p_reset. rewrite Z0. cbv zeta. apply pc_assoc. unfold qb_reset. change (nV (p_b s)) with (pV s). rewrite Z0. cbv zeta.
    apply pc_assoc, pc_any. intro R. cbn [bind]. change (negb (SUCCESSFUL_RETURN =r? SUCCESSFUL_RETURN)) with false. cbv iota.
    apply pc_assoc, pc_any. intro T. apply pc_assoc, pc_any. intro Q. cbn [bind pc]. split.
    - unfold pV at 1. cbn. now apply init_n.
    - unfold pC at 1. cbn. now apply init_n. }
  destruct (if isInitialised (p_b s) then _ else _) as [s1| |]; [|reflexivity..]. cbn [bind pc] in *. destruct E as [EV EC].
  destruct (guessDefined gB (pV s1)) as [ok| |]; [|reflexivity..]. cbn [bind]. destruct (negb ok); [reflexivity|].
  destruct (guessDefined gC (pC s1)) as [ok'| |]; [|reflexivity..]. cbn [bind]. destruct (negb ok'); [reflexivity|]. cbv zeta.
  destruct (_ && _); [reflexivity|]. destruct (_ && _); [reflexivity|].
  rewrite <- EV, <- EC. now rewrite p_setupQPdata_spelled.
Qed.
End Init.

(** ** QProblem: a null pointer for lb is dereferenced by every hotstart without far bounds *)
Section Deref.
Context {N : Num}.
Notation arr := (list N).
Notation qp := (qp N).
Variable junk : Z -> arr.
Variable cpu : Z -> bool.

Lemma setType_n b i t : pc (b_setType b i t) (fun b' => st_n b' = st_n b).
Proof. unfold b_setType, st_setType. pwalk; reflexivity. Qed.
Lemma subjtype_V lbn ubn (s : qp) : pc (on_b (setupSubjectToType lbn ubn) s) (fun s' => pV s' = pV s).
Proof.
  unfold on_b, setupSubjectToType. apply pc_assoc, pc_any. intro lo. apply pc_assoc, pc_any. intro up. cbv zeta. apply pc_assoc.
  set (b0 := st_setNoUpper _ _).
  eapply pc_bind with (P := fun b : subjectTo => st_n b = st_n b0); [|intros b E; cbn [bind pc]; exact E].
  destruct lbn as [ln|], ubn as [un|].
  2-4: apply (pc_for_up (fun b => st_n b = st_n b0)); [reflexivity|]; intros i b E; rewrite <- E; apply setType_n.
  apply (pc_for_up (fun b => st_n b = st_n b0)); [reflexivity|]. intros i b E. rewrite <- E. pwalk; apply setType_n.
Qed.

Theorem C51_deref_QProblem gn ubn lbAn ubAn nWSR performed (s : qp) : accepts s -> 0 < pV s ->
  forall x, p_solveQP junk cpu gn None ubn lbAn ubAn nWSR performed s <> Ok x.
Proof.
  intros A Hn x H. assert (Y : pc (p_solveQP junk cpu gn None ubn lbAn ubAn nWSR performed s) (fun _ => False)).
  2: { rewrite H in Y. exact Y. }
  clear H x. unfold p_solveQP.
  assert (X : pc (updateActivitiesForHotstart junk None ubn (up_b (set_q_status QPS_PERFORMINGHOMOTOPY) s)) (fun _ => False)).
  { unfold updateActivitiesForHotstart. cbv zeta. eapply pc_bind; [apply subjtype_V|]. intros s1 E. assert (E' : pV s1 = pV s) by exact E. clear E.
    unfold forb_up. destruct (Z.to_nat (pV s1 - 0)) eqn:Z1; [lia|]. cbn [forb_up_n bind]. exact I. }
  destruct A as [A|[A|A]]; rewrite A; (eapply pc_bind; [exact X|intros ? []]).
Qed.
End Deref.

(** ** The options a guess or a new factorisation leaves alone *)
Section Opts.
Context {N : Num}.
Notation arr := (list N).
Notation qpb := (qpb N).
Notation qp := (qp N).
Variable junk : Z -> arr.
Variable cpu : Z -> bool.

Definition so (s s' : qp) : Prop := same_opts (p_opts s) (p_opts s').
Lemma so_refl s : so s s. Proof. unfold so, same_opts. auto 20. Qed.
Lemma so_trans a b c : so a b -> so b c -> so a c. Proof. apply same_opts_trans. Qed.
Lemma so_kept (a b : qp) : kept a b -> so a b.
Proof. intros ((O & _) & _). exact O. Qed.
Lemma so_ok s r s' : upd_ok s (r, s') -> so s s'.
Proof. intros [[K _] _]. now apply so_kept. Qed.
Lemma so_inf s r s' : upd_inf s (r, s') -> so s s'.
Proof. intros [[[K _] _] _]. now apply so_kept. Qed.

Lemma so_reg (s : qp) : pc (' (r, b) <- regulariseHessian (p_b s);; Ok (r, set_p_b b s)) (fun '(_, s') => so s s').
Proof. unfold regulariseHessian. pwalk; repeat split. Qed.
Lemma so_pchol (s : qp) : pc (computeProjectedCholesky s) (fun '(_, s') => so s s').
Proof. eapply pc_mono; [apply cproj, kinf_refl|]. intros [r s'] U. now apply so_inf in U. Qed.
Lemma so_initial_cholesky (s : qp) : pc (p_setupInitialCholesky s) (fun '(_, s') => so s s').
Proof.
  unfold p_setupInitialCholesky. apply pc_any. intro fv. cbv zeta.
  assert (FIN : forall r (s1 : qp), so s s1 -> pc (if negb (r =r? SUCCESSFUL_RETURN) then Ok (RET_INIT_FAILED_CHOLESKY, s1) else Ok (SUCCESSFUL_RETURN, up_b (set_q_haveChol true) s1)) (fun '(_, s') => so s s')).
  { intros r s1 E. destruct (negb _); exact E. }
  eapply pc_bind with (P := fun '(_, s') => so s s'); [destruct (_ && _); [apply so_reg|apply so_refl]|].
  intros [r1 s1] E1. destruct (negb _); [exact E1|].
  eapply pc_bind; [apply so_pchol|]. intros [r2 s2] E2. assert (E12 := so_trans _ _ _ E1 E2). destruct (r2 =r? RET_HESSIAN_NOT_SPD); [|now apply FIN].
  eapply pc_bind; [apply so_reg|]. intros [r3 s3] E3. assert (E13 := so_trans _ _ _ E12 E3). destruct (negb _); [exact E13|].
  eapply pc_bind; [apply so_pchol|]. intros [r4 s4] E4. apply FIN. eapply so_trans; eauto.
Qed.

Definition sstep (step : Z -> qp -> res (returnValue * qp)) : Prop := forall i s, pc (step i s) (fun '(_, s') => so s s').
Lemma so_loop s0 n step s : sstep step -> so s0 s -> pc (ws_loop n step s) (fun c => match c with Next s' => so s0 s' | Brk s' => so s0 s' end).
Proof.
  intros H K. unfold ws_loop. apply (pc_forb (so s0) (so s0)); [exact K|]. intros i s1 K1. eapply pc_bind; [apply H|]. intros [r s2] E.
  destruct (_ =r? _); eapply so_trans; eauto.
Qed.
Lemma so_phase s0 n step rest s : sstep step -> (forall s, so s0 s -> pc (rest s) (fun '(_, s') => so s0 s')) -> so s0 s ->
  pc (c <- ws_loop n step s ;; match c with Brk s => Ok (RET_SETUP_WORKINGSET_FAILED, s) | Next s => rest s end) (fun '(_, s') => so s0 s').
Proof. intros H R K. eapply pc_bind; [apply so_loop; eauto|]. intros [s1|s1] K1; [now apply R|exact K1]. Qed.
Lemma so_both f : (forall v, sstep (f v)) -> sstep (fun i s => '(r, s) <- f ST_LOWER i s ;; if r =r? SUCCESSFUL_RETURN then f ST_UPPER i s else Ok (r, s)).
Proof.
  intros H i s. eapply pc_bind; [apply H|]. intros [r s1] E. destruct (_ =r? _); [|exact E]. eapply pc_mono; [apply H|]. intros [r2 s2] E2. eapply so_trans; eauto.
Qed.
Ltac sleaf := first [apply so_refl | assumption | eapply so_trans; eassumption].
Ltac sw := repeat (cbv beta zeta;
  match goal with
  | |- pc (Ok _) _ => cbn [pc]; try sleaf
  | |- pc (if ?b then _ else _) _ => destruct b eqn:?
  | |- pc (let '(_, _) := ?b in _) _ => destruct b
  | |- pc (p_removeConstraint _ _ _ _ _ _) _ => eapply pc_mono; [apply p_remC, kinf_refl|let U := fresh in intros [? ?] U; apply so_inf in U; sleaf]
  | |- pc (p_removeBound _ _ _ _ _ _) _ => eapply pc_mono; [apply p_remB, kinf_refl|let U := fresh in intros [? ?] U; apply so_inf in U; sleaf]
  | |- pc (p_addConstraint _ _ _ _ _ _) _ => eapply pc_mono; [apply p_addC, kinf_refl|let U := fresh in intros [? ?] U; apply so_ok in U; sleaf]
  | |- pc (p_addBound _ _ _ _ _ _) _ => eapply pc_mono; [apply p_addB, kinf_refl|let U := fresh in intros [? ?] U; apply so_ok in U; sleaf]
  | |- pc (bind (addConstraint_checkLI _ _ _) _) _ => eapply pc_bind; [apply checkC, kinf_refl|let U := fresh in intros [? ?] U; apply so_inf in U]
  | |- pc (bind (addBound_checkLI _ _ _) _) _ => eapply pc_bind; [apply checkB, kinf_refl|let U := fresh in intros [? ?] U; apply so_inf in U]
  | |- pc (bind _ _) _ => apply pc_any; intro
  end).
Lemma so_workingSet gB gC afresh (s : qp) : pc (p_setupAuxiliaryWorkingSet junk gB gC afresh s) (fun '(_, s') => so s s').
Proof.
  unfold p_setupAuxiliaryWorkingSet. cbv zeta. apply pc_any. intros ok. destruct (negb ok); [apply so_refl|]. apply pc_any. intros ok'. destruct (negb ok'); [apply so_refl|].
  apply pc_any. intros triv. destruct triv.
  { eapply pc_bind with (P := so s); [|intros s' E; exact E]. apply (pc_for_up (so s)); [apply so_refl|]. intros i s1 K. pwalk; exact K. }
  set (s1 := up_b _ s). assert (K1 : so s s1) by (unfold so, same_opts; auto 20).
  set (full := o_enableFullLITests _). set (eps := o_epsLITests _). clearbody s1 full eps.
  match goal with |- pc ((if afresh then ?r else _) _) _ => set (rest := r) end.
  assert (RE : forall s2, so s s2 -> pc (rest s2) (fun '(_, s') => so s s')).
  { intros s2 K2. unfold rest. clear rest. 
    repeat (apply so_phase; [| |assumption]; [| clear s2 K2; intros s2 K2]).
    5: { cbn [pc]. eapply so_trans; [exact K2|]. unfold so, same_opts. auto 20. }
    all: intros i s3; sw. }
  destruct afresh; [now apply RE|].
  apply so_phase; [| |exact K1].
  - apply (so_both (fun v i s => _)). intros v i s3. sw.
  - intros s2 K2. apply so_phase; [|exact RE|exact K2]. apply (so_both (fun v i s => _)). intros v i s3. sw.
Qed.
Lemma so_guess gB gC (s : qp) : pc (p_setupAuxiliaryQP junk gB gC s) (fun '(_, s') => so s s').
Proof.
  assert (GO : pc (let s := up_b (set_q_status QPS_PREPARINGAUXILIARYQP) s in
      b <- p_shallRefactorise gB gC s ;;
      '(r, s) <- (if (b : bool) then
          let s := up_b (set_q_bounds (snd (st_init (p_bounds s) (pV s)))) s in
          let s := set_p_cons (snd (st_init (p_cons s) (pC s))) s in
          s <- p_setupSubjectToType (Some (q_lb (p_b s))) (Some (q_ub (p_b s))) (Some (p_lbA s)) (Some (p_ubA s)) s ;;
          '(r, bd) <- st_setupAll KBounds (p_bounds s) ST_INACTIVE ;;
          let s := up_b (set_q_bounds bd) s in
          if negb (r =r? SUCCESSFUL_RETURN) then Ok (RET_SETUP_AUXILIARYQP_FAILED, s) else
          '(r, cn) <- st_setupAll KConstraints (p_cons s) ST_INACTIVE ;;
          let s := set_p_cons cn s in
          if negb (r =r? SUCCESSFUL_RETURN) then Ok (RET_SETUP_AUXILIARYQP_FAILED, s) else
          '(r, s) <- setupTQfactorisation s ;;
          if negb (r =r? SUCCESSFUL_RETURN) then Ok (RET_SETUP_AUXILIARYQP_FAILED, s) else
          '(_, s) <- p_setupAuxiliaryWorkingSet junk gB gC true s ;;
          '(r, s) <- computeProjectedCholesky s ;;
          Ok (if r =r? SUCCESSFUL_RETURN then SUCCESSFUL_RETURN else RET_SETUP_AUXILIARYQP_FAILED, s)
        else
          '(_, s) <- p_setupAuxiliaryWorkingSet junk gB gC false s ;; Ok (SUCCESSFUL_RETURN, s)) ;;
      if negb (r =r? SUCCESSFUL_RETURN) then Ok (r, s) else
      s <- zeroDuals s ;;
      s <- p_setupAuxiliaryQPgradient s ;;
      s <- recomputeAx s ;;
      '(_, s) <- p_setupAuxiliaryQPbounds None None false s ;;
      Ok (SUCCESSFUL_RETURN, s)) (fun '(_, s') => so s s')).
  2: { unfold p_setupAuxiliaryQP. destruct gB, gC; [exact GO..|apply so_refl]. }
  cbv zeta. set (s1 := up_b _ s). assert (K1 : so s s1) by (unfold so, same_opts; auto 20). clearbody s1.
  apply pc_any. intros b. eapply pc_bind with (P := fun '(_, s') => so s s').
  { destruct b.
    - set (s2 := set_p_cons _ _). assert (K2 : so s s2) by exact K1. clearbody s2.
      eapply pc_bind with (P := so s). { unfold p_setupSubjectToType. eapply pc_bind with (P := fun b => q_opts b = q_opts (p_b s2)); [unfold setupSubjectToType; pwalk; reflexivity|].
        intros b E. assert (K3 : so s (set_p_b b s2)) by (unfold so, p_opts in *; cbn; rewrite E; exact K2). set (s3 := set_p_b b s2) in *. clearbody s3. pwalk; exact K3. }
      intros s3 K3. apply pc_any. intros [r bd]. destruct (negb _); [exact K3|]. apply pc_any. intros [r2 cn]. destruct (negb _); [exact K3|].
      eapply pc_bind with (P := fun '(_, s') => so s s'). { unfold setupTQfactorisation. pwalk; exact K3. }
      intros [r4 s4] K4. destruct (negb _); [exact K4|]. eapply pc_bind; [apply so_workingSet|]. intros [r5 s5] K5. eapply pc_bind; [apply so_pchol|]. intros [r6 s6] K6. cbn [pc].
      eapply so_trans; [exact K4|]. eapply so_trans; eauto.
    - eapply pc_bind; [apply so_workingSet|]. intros [r5 s5] K5. cbn [pc]. eapply so_trans; eauto. }
  intros [r2 s2] K2. destruct (negb _); [exact K2|].
  eapply pc_bind with (P := so s). { unfold zeroDuals. pwalk; exact K2. }
  intros s3 K3. eapply pc_bind with (P := so s). { eapply pc_mono; [apply auxgrad, kinf_refl|]. intros s' [[K _] _]. apply so_kept in K. eapply so_trans; eauto. }
  intros s4 K4. eapply pc_bind with (P := so s). { unfold recomputeAx. pwalk; exact K4. }
  intros s5 K5. eapply pc_bind with (P := fun '(_, s') => so s s'). { unfold p_setupAuxiliaryQPbounds. pwalk; try exact K5; match goal with x : ctl _ _ |- _ => destruct x as [[[[? ?] ?] ?]|[[[? ?] ?] ?]] end; exact K5. }
  intros [r6 s6] K6. exact K6.
Qed.
End Opts.

(** ** Hotstart with far bounds, over the reals *)
(** a result of [m] is also the result of [m'] *)
Definition refines {A} (m m' : res A) : Prop := forall x, m = Ok x -> m' = Ok x.
Lemma ref_refl {A} (m : res A) : refines m m.
Proof. intros x H. exact H. Qed.
Lemma ref_bind {A B} (m m' : res A) (f f' : A -> res B) (P : A -> Prop) : refines m m' -> pc m P -> (forall x, P x -> refines (f x) (f' x)) ->
  refines (bind m f) (bind m' f').
Proof. intros R X F y H. destruct m as [a| |]; try discriminate. cbn in *. rewrite (R a eq_refl). cbn. now apply F. Qed.
Lemma ref_same {A B} (m : res A) (f f' : A -> res B) : (forall x, refines (f x) (f' x)) -> refines (bind m f) (bind m f').
Proof. intros F. apply (ref_bind _ _ _ _ (fun _ => True)); [apply ref_refl|apply pc_true|auto]. Qed.
Lemma ref_ok {A} (m : res A) y : pc m (fun x => x = y) -> refines m (Ok y).
Proof. intros P x ->. cbn in P. now subst. Qed.
Lemma ref_for {S} (I : Z -> S -> Prop) lo hi (b b' : Z -> S -> res S) (s : S) : I lo s ->
  (forall i x, lo <= i < hi -> I i x -> refines (b i x) (b' i x) /\ pc (b i x) (I (i + 1))) ->
  refines (for_up lo hi b s) (for_up lo hi b' s) /\ pc (for_up lo hi b s) (I (Z.max lo hi)).
Proof.
  intros H0 Hs. unfold for_up. remember (Z.to_nat (hi - lo)) as k eqn:Ek.
  cut (forall l s, lo <= l <= Z.max lo hi -> Z.to_nat (hi - l) = k -> I l s ->
        refines (for_up_n k l b s) (for_up_n k l b' s) /\ pc (for_up_n k l b s) (I (Z.max lo hi))).
  { intros X. apply X; auto. lia. }
  clear s H0 Ek. induction k as [|k IH]; intros l s Hl Ek H; cbn [for_up_n].
  - replace (Z.max lo hi) with l by lia. split; [apply ref_refl|exact H].
  - destruct (Hs l s ltac:(lia) H) as [R P]. split.
    + eapply ref_bind; [exact R|exact P|]. intros x Hx. apply IH; auto; lia.
    + eapply pc_bind; [exact P|]. intros x Hx. apply IH; auto; lia.
Qed.
Lemma pc_rd {A B} (d : A) (l : list A) i (f : A -> res B) Q : (0 <= i < zlen l -> pc (f (zn d l i)) Q) -> pc (v <- rd l i ;; f v) Q.
Proof.
  intros H. unfold rd. destruct (Z.leb_spec 0 i); [|exact I]. destruct (nth_error l (Z.to_nat i)) eqn:E; [|exact I]. cbn [bind].
  assert (i < zlen l) by (unfold zlen; assert (Z.to_nat i < length l)%nat by (apply nth_error_Some; congruence); lia).
  unfold zn in H. rewrite (nth_error_nth _ _ d E) in H. apply H. lia.
Qed.
Lemma ref_rd {A B} (d : A) (l : list A) i (f f' : A -> res B) : (0 <= i < zlen l -> refines (f (zn d l i)) (f' (zn d l i))) -> refines (v <- rd l i ;; f v) (v <- rd l i ;; f' v).
Proof.
  intros H x. unfold rd. destruct (Z.leb_spec 0 i); [|discriminate]. destruct (nth_error l (Z.to_nat i)) eqn:E; [|discriminate]. cbn [bind].
  assert (i < zlen l) by (unfold zlen; assert (Z.to_nat i < length l)%nat by (apply nth_error_Some; congruence); lia).
  unfold zn in H. rewrite (nth_error_nth _ _ d E) in H. apply H. lia.
Qed.
Lemma pc_wr {A B} (l : list A) i v (f : list A -> res B) Q : (0 <= i < zlen l -> pc (f (zupd l i v)) Q) -> pc (a <- wr l i v ;; f a) Q.
Proof.
  intros H. unfold wr, inb. destruct (Z.leb_spec 0 i); [|exact I]. destruct (Z.ltb_spec i (zlen l)); [|exact I]. cbn [andb bind]. apply H. lia.
Qed.

Ltac rl L := match goal with |- context [Rltb ?a ?b] => destruct (Rltb_spec a b) as [L|L] end.
Section Far.
Variables eps zero infty : R.
Notation N := (RNumT eps zero infty).
Notation arr := (list R).
Notation qpb := (qpb N).
Notation qp := (qp N).
Variable junk : Z -> arr.
Variable cpu : Z -> bool.
Hypothesis JL : forall k, zlen (junk k) = Z.max 0 k.
Hypothesis eps_nn : (0 <= eps)%R.
Hypothesis infty_pos : (0 < infty)%R.

(** [o'] is [o], or a null pointer where every entry of [o] is the infinite value [d] *)
Definition hides (d : R) (o o' : option arr) : Prop :=
  o' = o \/ (o' = None /\ exists a, o = Some a /\ forall i, 0 <= i < zlen a -> zn 0%R a i = d).
(** the limits lie in the extended range *)
Definition within (o : option arr) : Prop :=
  forall a, o = Some a -> forall i, 0 <= i < zlen a -> (- infty <= zn 0 a i <= infty)%R.

Lemma consistent_ref lbn lbn' ubn ubn' (s : qpb) : hides (- infty) lbn lbn' -> hides infty ubn ubn' -> within lbn -> within ubn ->
  refines (areBoundsConsistent (N := N) lbn ubn s) (areBoundsConsistent (N := N) lbn' ubn' s).
Proof.
  intros HL HU WL WU. destruct HL as [->|(-> & ln & -> & EL)], HU as [->|(-> & un & -> & EU)]; [apply ref_refl| | |];
    unfold areBoundsConsistent; [destruct lbn as [ln|]; [|apply ref_refl]|destruct ubn as [un|]; [|apply ref_refl]|]; apply ref_ok;
    (eapply pc_bind with (P := fun c => match c with Next _ => True | Brk _ => False end);
      [apply (pc_forb (fun _ => True)); [exact I|]; intros i x _; apply (pc_rd 0%R); intros Hi; apply (pc_rd 0%R); intros Hi'; cbn; rl L; [exfalso|exact I]
      |intros [c|c] C; [reflexivity|destruct C]]).
  - rewrite EU in L by lia. specialize (WL ln eq_refl i Hi). lra.
  - rewrite EL in L by lia. specialize (WU un eq_refl i Hi'). lra.
  - rewrite EL, EU in L by lia. lra.
Qed.
Lemma extend_ref lbn lbn' ubn ubn' n (far : R) : hides (- infty) lbn lbn' -> hides infty ubn ubn' -> (far < infty)%R ->
  refines (extendFar (N := N) lbn ubn n far) (extendFar (N := N) lbn' ubn' n far) /\ pc (extendFar (N := N) lbn ubn n far) (fun f : R => (f < infty)%R).
Proof.
  intros HL HU F.
  assert (U1 : forall a far, (far < infty)%R -> pc (for_up 0 n (fun i (far : R) => u <- rd a i ;; Ok (if (nltb (n := N) u infty) && (nltb (n := N) far u) then u else far)) far) (fun f : R => (f < infty)%R)).
  { intros a f1 F1. apply (pc_for_up (fun f : R => (f < infty)%R)); [exact F1|]. intros i f Ff. apply (pc_rd 0%R). intros _. cbn. rl L; [|exact Ff].
    cbn [andb]. rl L2; assumption. }
  assert (L1 : forall a far, (far < infty)%R -> pc (for_up 0 n (fun i (far : R) => l <- rd a i ;; Ok (if (nltb (n := N) (- infty)%R l) && (nltb (n := N) l (- far)%R) then (- l)%R else far)) far) (fun f : R => (f < infty)%R)).
  { intros a f1 F1. apply (pc_for_up (fun f : R => (f < infty)%R)); [exact F1|]. intros i f Ff. apply (pc_rd 0%R). intros _. cbn. rl L; [|exact Ff].
    cbn [andb]. rl L2; [lra|assumption]. }
  assert (LR : forall f0 : R, (f0 < infty)%R ->
    refines (match lbn with None => Ok f0 | Some a => for_up 0 n (fun i (far : R) => l <- rd a i ;; Ok (if (nltb (n := N) (- infty)%R l) && (nltb (n := N) l (- far)%R) then (- l)%R else far)) f0 end)
            (match lbn' with None => Ok f0 | Some a => for_up 0 n (fun i (far : R) => l <- rd a i ;; Ok (if (nltb (n := N) (- infty)%R l) && (nltb (n := N) l (- far)%R) then (- l)%R else far)) f0 end)).
  { intros f0 F0. destruct HL as [->|(-> & ln & -> & EL)]; [apply ref_refl|]. apply ref_ok. apply (pc_for_up (fun f => f = f0)); [reflexivity|].
    intros i f ->. apply (pc_rd 0%R). intros Hi. cbn. rewrite EL by lia. destruct (Rltb_spec (- infty) (- infty)); [lra|reflexivity]. }
  assert (LP : forall f0 : R, (f0 < infty)%R -> pc (match lbn with None => Ok f0 | Some a => for_up 0 n (fun i (far : R) => l <- rd a i ;; Ok (if (nltb (n := N) (- infty)%R l) && (nltb (n := N) l (- far)%R) then (- l)%R else far)) f0 end) (fun f : R => (f < infty)%R)).
  { intros f0 F0. destruct lbn; [now apply L1|exact F0]. }
  split.
  - unfold extendFar. eapply ref_bind with (P := fun f : R => (f < infty)%R); [| |exact LR].
    + destruct HU as [->|(-> & un & -> & EU)]; [apply ref_refl|]. apply ref_ok. apply (pc_for_up (fun f : R => f = far)); [reflexivity|].
      intros i f ->. apply (pc_rd 0%R). intros Hi. cbn. rewrite EU by lia. destruct (Rltb_spec infty infty); [lra|reflexivity].
    + destruct ubn; [now apply U1|exact F].
  - unfold extendFar. eapply pc_bind with (P := fun f : R => (f < infty)%R); [|exact LP]. destruct ubn; [now apply U1|exact F].
Qed.
(** the limits used in one round *)
Definition ulim (v : R) (lbn ubn : option arr) (n : Z) (f : arr * arr) : res (arr * arr) :=
  for_up 0 n (fun i '(lf, uf) =>
    l <- match lbn with None => Ok (nopp (n := N) v) | Some a => w <- rd a i ;; Ok (getMax (N := N) (nopp (n := N) v) w) end ;;
    lf <- wr lf i l ;;
    u <- match ubn with None => Ok v | Some a => w <- rd a i ;; Ok (getMin (N := N) v w) end ;;
    uf <- wr uf i u ;;
    Ok (lf, uf)) f.
(** where the limit is hidden its temporary value is finite *)
Definition fin (lbn lbn' ubn ubn' : option arr) (f : arr * arr) : Prop :=
  (lbn' = None -> lbn <> None -> forall k, 0 <= k < zlen (fst f) -> (- infty < zn 0 (fst f) k)%R) /\
  (ubn' = None -> ubn <> None -> forall k, 0 <= k < zlen (snd f) -> (zn 0 (snd f) k < infty)%R).
Definition finz (n : Z) (G : Prop) (lbn lbn' ubn ubn' : option arr) (f : arr * arr) : Prop :=
  (lbn' = None -> lbn <> None -> forall k, 0 <= k < zlen (fst f) -> k < n \/ G -> (- infty < zn 0 (fst f) k)%R) /\
  (ubn' = None -> ubn <> None -> forall k, 0 <= k < zlen (snd f) -> k < n \/ G -> (zn 0 (snd f) k < infty)%R).
Lemma ulim_ref (v : R) lbn lbn' ubn ubn' n (f : arr * arr) : hides (- infty) lbn lbn' -> hides infty ubn ubn' -> (v < infty)%R ->
  fin lbn lbn' ubn ubn' f \/ (zlen (fst f) = Z.max 0 n /\ zlen (snd f) = Z.max 0 n) ->
  refines (ulim v lbn ubn n f) (ulim v lbn' ubn' n f) /\ pc (ulim v lbn ubn n f) (fin lbn lbn' ubn ubn').
Proof.
  intros HL HU F H0. unfold ulim.
  set (L1 := zlen (fst f)) in *. set (L2 := zlen (snd f)) in *.
  assert (T : refines (ulim v lbn ubn n f) (ulim v lbn' ubn' n f) /\
              pc (ulim v lbn ubn n f) (fun g => zlen (fst g) = L1 /\ zlen (snd g) = L2 /\ finz (Z.max 0 n) (fin lbn lbn' ubn ubn' f) lbn lbn' ubn ubn' g)).
  { unfold ulim. apply (ref_for (fun i g => zlen (fst g) = L1 /\ zlen (snd g) = L2 /\ finz i (fin lbn lbn' ubn ubn' f) lbn lbn' ubn ubn' g)).
    - split; [reflexivity|]. split; [reflexivity|]. split; intros A B k Hk [C|C]; try lia; apply C; auto.
    - intros i [lf uf] Hi (E1 & E2 & G1 & G2). cbn [fst snd] in *.
      assert (RL : refines (match lbn with None => Ok (nopp (n := N) v) | Some a => w <- rd a i ;; Ok (getMax (N := N) (nopp (n := N) v) w) end)
                           (match lbn' with None => Ok (nopp (n := N) v) | Some a => w <- rd a i ;; Ok (getMax (N := N) (nopp (n := N) v) w) end) /\
                   pc (match lbn with None => Ok (nopp (n := N) v) | Some a => w <- rd a i ;; Ok (getMax (N := N) (nopp (n := N) v) w) end)
                      (fun l : R => lbn' = None -> lbn <> None -> (- infty < l)%R)).
      { destruct HL as [->|(-> & ln & -> & EL)]; [split; [apply ref_refl|destruct lbn; apply pc_true || cbn; try (apply pc_mono with (P := fun _ => True); [apply pc_true|intros; discriminate]); intros; congruence]|].
        split; [apply ref_ok|]; apply (pc_rd 0%R); intros Hi'; rewrite EL by lia; cbn; unfold getMax; cbn; rl L; try reflexivity; try lra; intros; lra. }
      assert (RU : refines (match ubn with None => Ok v | Some a => w <- rd a i ;; Ok (getMin (N := N) v w) end)
                           (match ubn' with None => Ok v | Some a => w <- rd a i ;; Ok (getMin (N := N) v w) end) /\
                   pc (match ubn with None => Ok v | Some a => w <- rd a i ;; Ok (getMin (N := N) v w) end)
                      (fun l : R => ubn' = None -> ubn <> None -> (l < infty)%R)).
      { destruct HU as [->|(-> & un & -> & EU)]; [split; [apply ref_refl|destruct ubn; cbn; try (apply pc_mono with (P := fun _ => True); [apply pc_true|intros; discriminate]); intros; congruence]|].
        split; [apply ref_ok|]; apply (pc_rd 0%R); intros Hi'; rewrite EU by lia; cbn; unfold getMin; cbn; rl L; try reflexivity; try lra; intros; lra. }
      destruct RL as [RL PL], RU as [RU PU]. split.
      + eapply ref_bind; [exact RL|exact PL|]. intros l _. apply ref_same. intros lf'. eapply ref_bind; [exact RU|exact PU|]. intros u _. apply ref_refl.
      + eapply pc_bind; [exact PL|]. intros l Gl. apply pc_wr. intros Hil. eapply pc_bind; [exact PU|]. intros u Gu. apply pc_wr. intros Hiu. cbn [pc fst snd].
        rewrite !zlen_zupd. split; [exact E1|]. split; [exact E2|]. split; cbn [fst snd]; rewrite zlen_zupd; intros A B k Hk C; rcar; (rewrite zn_zupd by lia); destruct (Z.eqb_spec k i); auto;
          [apply G1|apply G2]; auto; (destruct C; [left; lia|right; assumption]). }
  destruct T as [T1 T2]. split; [exact T1|]. eapply pc_mono; [exact T2|]. intros g (E1 & E2 & G1 & G2).
  split; intros A B k Hk; [apply G1|apply G2]; auto; (destruct H0 as [H0|[H1 H2]]; [right; exact H0|left; lia]).
Qed.
Lemma count_ref lbn lbn' ubn ubn' n (f : arr * arr) (x : arr) (tol : R) c0 : hides (- infty) lbn lbn' -> hides infty ubn ubn' -> fin lbn lbn' ubn ubn' f ->
  let count (lbn ubn : option arr) := for_up 0 n (fun i c =>
    l <- rd (fst f) i ;; u <- rd (snd f) i ;; xi <- rd x i ;;
    a <- match lbn with None => Ok true | Some w => v <- rd w i ;; Ok (nltb (n := N) v l) end ;;
    b <- match ubn with None => Ok true | Some w => v <- rd w i ;; Ok (nltb (n := N) u v) end ;;
    let c := if (a : bool) && (nltb (n := N) (nabs (n := N) (nsub (n := N) l xi)) tol) then c + 1 else c in
    Ok (if (b : bool) && (nltb (n := N) (nabs (n := N) (nsub (n := N) u xi)) tol) then c + 1 else c)) c0 in
  refines (count lbn ubn) (count lbn' ubn').
Proof.
  intros HL HU [G1 G2] count. unfold count.
  refine (proj1 (ref_for (fun _ _ => True) _ _ _ _ _ I _)). intros i c Hi _. split; [|apply pc_true].
  apply (ref_rd 0%R). intros H1. apply (ref_rd 0%R). intros H2. apply ref_same. intros xi.
  eapply ref_bind with (P := fun _ => True); [|apply pc_true|].
  - destruct HL as [->|(-> & ln & -> & EL)]; [apply ref_refl|]. apply ref_ok. apply (pc_rd 0%R). intros Hi'. rewrite EL by lia. cbn.
    rl L; [reflexivity|]. exfalso. specialize (G1 eq_refl ltac:(discriminate) i H1). lra.
  - intros a _. eapply ref_bind with (P := fun _ => True); [|apply pc_true|intros; apply ref_refl].
    destruct HU as [->|(-> & un & -> & EU)]; [apply ref_refl|]. apply ref_ok. apply (pc_rd 0%R). intros Hi'. rewrite EU by lia. cbn.
    rl L; [reflexivity|]. exfalso. specialize (G2 eq_refl ltac:(discriminate) i H2). lra.
Qed.
Definition quiet (s : qp) : Prop := o_enableRamping (p_opts s) = false.
Definition fin4 (lbn lbn' ubn ubn' lbAn lbAn' ubAn ubAn' : option arr) (f : arr * arr * arr * arr) : Prop :=
  let '(lf, uf, lAf, uAf) := f in fin lbn lbn' ubn ubn' (lf, uf) /\ fin lbAn lbAn' ubAn ubAn' (lAf, uAf).
Lemma kept_quiet (s s' : qp) : kept s s' -> quiet s -> quiet s'.
Proof. unfold quiet. intros K Q. destruct K as ((O & _) & _). destruct O as [O _]. unfold p_opts in *. congruence. Qed.

Section Limits.
Variables lbn lbn' ubn ubn' lbAn lbAn' ubAn ubAn' : option arr.
Hypothesis HL : hides (- infty) lbn lbn'.
Hypothesis HU : hides infty ubn ubn'.
Hypothesis HLA : hides (- infty) lbAn lbAn'.
Hypothesis HUA : hides infty ubAn ubAn'.
Notation fin4' := (fin4 lbn lbn' ubn ubn' lbAn lbAn' ubAn ubAn').

Lemma p_update_eq (far : R) n a b c d s lf uf lAf uAf : quiet s ->
  p_updateFarBounds (N := N) far n a b c d s (lf, uf, lAf, uAf) =
  ('(lf, uf) <- ulim far a b (pV s) (lf, uf) ;; '(lAf, uAf) <- ulim far c d (pC s) (lAf, uAf) ;; Ok (lf, uf, lAf, uAf)).
Proof. intros Q. unfold quiet, p_opts in Q. unfold p_updateFarBounds, updateFarBounds, p_opts. rewrite Q. reflexivity. Qed.
Lemma p_update_ref (far : R) n s f : quiet s -> (far < infty)%R ->
  (fin4' f \/ (let '(lf, uf, lAf, uAf) := f in zlen lf = Z.max 0 (pV s) /\ zlen uf = Z.max 0 (pV s) /\ zlen lAf = Z.max 0 (pC s) /\ zlen uAf = Z.max 0 (pC s))) ->
  refines (p_updateFarBounds (N := N) far n lbn ubn lbAn ubAn s f) (p_updateFarBounds (N := N) far n lbn' ubn' lbAn' ubAn' s f) /\
  pc (p_updateFarBounds (N := N) far n lbn ubn lbAn ubAn s f) fin4'.
Proof.
  intros Q F H. destruct f as [[[lf uf] lAf] uAf]. rewrite !p_update_eq by exact Q.
  destruct (ulim_ref far lbn lbn' ubn ubn' (pV s) (lf, uf) HL HU F) as [R1 P1].
  { destruct H as [[H _]|(H1 & H2 & _)]; [left; exact H|right; split; assumption]. }
  destruct (ulim_ref far lbAn lbAn' ubAn ubAn' (pC s) (lAf, uAf) HLA HUA F) as [R2 P2].
  { destruct H as [[_ H]|(_ & _ & H1 & H2)]; [left; exact H|right; split; assumption]. }
  split.
  - eapply ref_bind; [exact R1|exact P1|]. intros [l u] _. eapply ref_bind; [exact R2|exact P2|]. intros [lA uA] _. apply ref_refl.
  - eapply pc_bind; [exact P1|]. intros [l u] G1. eapply pc_bind; [exact P2|]. intros [lA uA] G2. exact (conj G1 G2).
Qed.
Lemma p_count_ref f (tol : R) s : fin4' f ->
  refines (p_countActiveFar (N := N) lbn ubn lbAn ubAn f tol s) (p_countActiveFar (N := N) lbn' ubn' lbAn' ubAn' f tol s).
Proof.
  destruct f as [[[lf uf] lAf] uAf]. intros [G1 G2]. unfold p_countActiveFar. eapply ref_bind with (P := fun _ => True); [|apply pc_true|].
  - exact (count_ref lbn lbn' ubn ubn' (pV s) (lf, uf) (q_x (p_b s)) tol 0 HL HU G1).
  - intros k _. exact (count_ref lbAn lbAn' ubAn ubAn' (pC s) (lAf, uAf) (p_Ax s) tol k HLA HUA G2).
Qed.
Lemma farLoop_ref fuel gn nWSR : forall performed (far : R) f (s : qp), quiet s -> fin4' f ->
  refines (p_farLoop (N := N) junk cpu fuel gn lbn ubn lbAn ubAn nWSR performed far f s)
          (p_farLoop (N := N) junk cpu fuel gn lbn' ubn' lbAn' ubAn' nWSR performed far f s).
Proof.
  induction fuel as [|fuel IH]; intros performed far f s Q G; [apply ref_refl|].
  cbn [p_farLoop]. destruct f as [[[lf uf] lAf] uAf].
  eapply ref_bind with (P := fun '(_, _, s') => quiet s'); [apply ref_refl| |].
  { destruct (accepts_or_refuses s) as [A|A].
    - eapply pc_mono; [apply solveRQP_ends; exact A|]. intros [[r n] s'] E. apply ends_kept in E. revert Q. now apply kept_quiet.
    - rewrite solveRQP_refuses by exact A. exact Q. }
  intros [[r n] s1] Q1. cbv zeta. destruct (q_infeasible (p_b s1)).
  - match goal with |- refines (if ?c then _ else _) _ => destruct c eqn:GE end; [apply ref_refl|].
    assert (FI : (far * o_growFarBounds (p_opts s1) < infty)%R).
    { revert GE. cbn. match goal with |- context [Rleb ?a ?b] => destruct (Rleb_spec a b) end; [discriminate|]. rcar. lra. }
    destruct (p_update_ref (far * o_growFarBounds (p_opts s1))%R (pV s1 + pC s1) s1 (lf, uf, lAf, uAf) Q1 FI (or_introl G)) as [R P].
    eapply ref_bind; [exact R|exact P|]. intros f' G'. apply IH; [exact Q1|exact G'].
  - destruct (is_qps _ _); [|apply ref_refl]. eapply ref_bind with (P := fun _ => True); [now apply p_count_ref|apply pc_true|]. intros k _.
    destruct (k =? 0); [apply ref_refl|].
    match goal with |- refines (if ?c then _ else _) _ => destruct c eqn:GE end; [apply ref_refl|].
    assert (FI : (far * o_growFarBounds (p_opts s1) < infty)%R).
    { revert GE. cbn. match goal with |- context [Rleb ?a ?b] => destruct (Rleb_spec a b) end; [discriminate|]. rcar. lra. }
    set (s2 := up_b (set_q_status QPS_HOMOTOPYQPSOLVED) s1). assert (Q2 : quiet s2) by exact Q1.
    destruct (p_update_ref (far * o_growFarBounds (p_opts s1))%R (pV s2 + pC s2) s2 (lf, uf, lAf, uAf) Q2 FI (or_introl G)) as [R P].
    eapply ref_bind; [exact R|exact P|]. intros f' G'. apply IH; [exact Q2|exact G'].
Qed.
End Limits.
Lemma p_consistent_ref lbn lbn' ubn ubn' lbAn lbAn' ubAn ubAn' (s : qp) :
  hides (- infty) lbn lbn' -> hides infty ubn ubn' -> hides (- infty) lbAn lbAn' -> hides infty ubAn ubAn' ->
  within lbn -> within ubn -> within lbAn -> within ubAn ->
  refines (p_areBoundsConsistent (N := N) lbn ubn lbAn ubAn s) (p_areBoundsConsistent (N := N) lbn' ubn' lbAn' ubAn' s).
Proof.
  intros HL HU HLA HUA WL WU WLA WUA. unfold p_areBoundsConsistent.
  eapply ref_bind with (P := fun _ => True); [now apply consistent_ref|apply pc_true|]. intros r _. destruct (r =r? RET_QP_INFEASIBLE); [apply ref_refl|].
  exact (consistent_ref lbAn lbAn' ubAn ubAn' (set_q_bounds (p_cons s) (p_b s)) HLA HUA WLA WUA).
Qed.

(** With far bounds and without ramping, a hotstart that gets null pointers returns
    what it returns when the infinite limits are spelled out. *)
Theorem C51_hotstart_QProblem fuel (gn : arr) lbn lbn' ubn ubn' lbAn lbAn' ubAn ubAn' nWSR gB gC (s : qp) x :
  o_enableFarBounds (p_opts s) = true -> o_enableRamping (p_opts s) = false -> (o_initialFarBounds (p_opts s) < infty)%R ->
  hides (- infty) lbn lbn' -> hides infty ubn ubn' -> hides (- infty) lbAn lbAn' -> hides infty ubAn ubAn' ->
  within lbn -> within ubn -> within lbAn -> within ubAn ->
  p_hotstart (N := N) junk cpu fuel gn lbn ubn lbAn ubAn nWSR gB gC s = Ok x ->
  p_hotstart (N := N) junk cpu fuel gn lbn' ubn' lbAn' ubAn' nWSR gB gC s = Ok x.
Proof.
  intros FB RA IF HL HU HLA HUA WL WU WLA WUA. revert x. change (refines (p_hotstart (N := N) junk cpu fuel gn lbn ubn lbAn ubAn nWSR gB gC s) (p_hotstart (N := N) junk cpu fuel gn lbn' ubn' lbAn' ubAn' nWSR gB gC s)).
  unfold p_hotstart. destruct (pV s =? 0); [apply ref_refl|].
  eapply ref_bind with (P := fun '(_, s') => so s s'); [apply ref_refl| |].
  { assert (G : pc (' (r, s1) <- p_setupAuxiliaryQP (N := N) junk gB gC s;;
       (if negb (r =r? SUCCESSFUL_RETURN) then Ok (RET_SETUP_AUXILIARYQP_FAILED, s1) else Ok (SUCCESSFUL_RETURN, up_b (set_q_status QPS_AUXILIARYQPSOLVED) s1))) (fun '(_, s') => so s s')).
    { eapply pc_bind; [apply so_guess|]. intros [r1 s1] E. destruct (negb _); exact E. }
    destruct gB, gC; [exact G..|apply so_refl]. }
  intros [r1 s1] E1. destruct (negb _); [apply ref_refl|].
  eapply ref_bind with (P := fun _ => True); [now apply p_consistent_ref|apply pc_true|]. intros r2 _. destruct (negb _); [apply ref_refl|]. cbv zeta.
  set (s2 := up_b _ s1). assert (E2 : so s s2) by exact E1. clearbody s2. clear s1 E1 r1.
  eapply ref_bind with (P := fun '(_, s') => so s s'); [apply ref_refl| |].
  { destruct (q_haveChol (p_b s2)); [exact E2|]. eapply pc_mono; [apply so_initial_cholesky|]. intros [r3 s3] E3. eapply so_trans; eauto. }
  intros [r3 s3] E3. destruct (negb (r3 =r? _)); [apply ref_refl|].
  assert (FB3 : o_enableFarBounds (p_opts s3) = true) by (unfold so, same_opts in E3; destruct E3 as (_ & A & _); congruence).
  assert (Q3 : quiet s3) by (unfold quiet; unfold so, same_opts in E3; destruct E3 as (A & _); congruence).
  assert (IF3 : (o_initialFarBounds (p_opts s3) < infty)%R) by (unfold so, same_opts in E3; destruct E3 as (_ & _ & _ & A & _); rewrite A; exact IF).
  rewrite FB3. cbn [negb].
  destruct (extend_ref lbn lbn' ubn ubn' (pV s3) _ HL HU IF3) as [R1 P1].
  eapply ref_bind; [exact R1|exact P1|]. intros f1 F1.
  destruct (extend_ref lbAn lbAn' ubAn ubAn' (pC s3) f1 HLA HUA F1) as [R2 P2].
  eapply ref_bind; [exact R2|exact P2|]. intros f2 F2.
  destruct (p_update_ref lbn lbn' ubn ubn' lbAn lbAn' ubAn ubAn' HL HU HLA HUA f2 (pV s3 + pC s3) s3 (junk (pV s3), junk (pV s3), junk (pC s3), junk (pC s3)) Q3 F2) as [R3 P3].
  { right. rewrite !JL. auto. }
  eapply ref_bind; [exact R3|exact P3|]. intros f G. apply farLoop_ref; auto.
Qed.
(** *** The same for class QProblemB, from a state a hotstart starts from *)
Lemma pc_both {A} (m : res A) (P Q : A -> Prop) : pc m P -> pc m Q -> pc m (fun x => P x /\ Q x).
Proof. destruct m; cbn; auto. Qed.
Lemma wp_pc {A} (m : res A) (Q : A -> Prop) : wp m Q -> pc m Q.
Proof. destruct m; cbn; auto. Qed.
Definition quietB (s : qpb) : Prop := o_enableRamping (q_opts s) = false.
Lemma oframe_quietB (s s' : qpb) : oframe (N := N) (q_opts s) (q_opts s') -> quietB s -> quietB s'.
Proof. intros [e E] Q. unfold quietB. rewrite E. exact Q. Qed.
Lemma update_eq (far : R) n a b (s : qpb) lf uf : quietB s -> updateFarBounds (N := N) far n a b s lf uf = ulim far a b (nV s) (lf, uf).
Proof. intros Q. unfold quietB in Q. unfold updateFarBounds. rewrite Q. reflexivity. Qed.

Section LimitsB.
Variables lbn lbn' ubn ubn' : option arr.
Hypothesis HL : hides (- infty) lbn lbn'.
Hypothesis HU : hides infty ubn ubn'.
Lemma J_ok : junk_ok (N := N) junk.
Proof. intros k Hk. rewrite JL. lia. Qed.

Lemma farLoopB_ref n fuel (gn : arr) nWSR : forall performed (far : R) lf uf (s : qpb), owf (N := N) n s -> hk s -> (n <= zlen gn)%Z ->
  zlen lf = n -> zlen uf = n -> quietB s -> fin lbn lbn' ubn ubn' (lf, uf) ->
  refines (farLoop (N := N) junk cpu fuel gn lbn ubn nWSR performed far lf uf s)
          (farLoop (N := N) junk cpu fuel gn lbn' ubn' nWSR performed far lf uf s).
Proof.
  induction fuel as [|fuel IH]; intros performed far lf uf s W K Hg L1 L2 Q G; [apply ref_refl|]. cbn [farLoop].
  eapply ref_bind with (P := fun '(_, _, s') => owf (N := N) n s' /\ sfr s s'); [apply ref_refl| |].
  { apply wp_pc. eapply wp_mono; [apply (solveRegularisedQP_safe (N := N) junk J_ok cpu n s gn (Some lf) (Some uf) nWSR performed W (fun _ => K) Hg); cbn; rcar; lia|].
    intros [[r k] s'] (A & B & _). auto. }
  intros [[r k] s1] (W1 & F1). cbv zeta. assert (Q1 : quietB s1) by (eapply oframe_quietB; [apply F1|exact Q]). assert (K1 : hk s1) by exact (hk_frame _ _ F1 K).
  assert (LEN : forall v (s2 : qpb), nV s2 = n -> pc (ulim v lbn ubn (nV s2) (lf, uf)) (fun g => zlen (fst g) = n /\ zlen (snd g) = n)).
  { intros v s2 NV. unfold ulim. apply (pc_for_up (fun g : arr * arr => zlen (fst g) = n /\ zlen (snd g) = n)); [split; assumption|]. intros i [l u] [A B]. cbn [fst snd] in *.
    apply pc_any. intros x. apply pc_wr. intros _. apply pc_any. intros y. apply pc_wr. intros _. cbn. rewrite !zlen_zupd. auto. }
  assert (NV1 : nV s1 = n) by (destruct W1 as (m0 & m1 & W1); exact (w_nv _ _ _ _ W1)).
  destruct (q_infeasible s1).
  - match goal with |- refines (if ?c then _ else _) _ => destruct c eqn:GE end; [apply ref_refl|].
    assert (FI : (far * o_growFarBounds (q_opts s1) < infty)%R).
    { revert GE. cbn. match goal with |- context [Rleb ?a ?b] => destruct (Rleb_spec a b) end; [discriminate|]. rcar. lra. }
    rewrite !update_eq by exact Q1.
    destruct (ulim_ref (far * o_growFarBounds (q_opts s1))%R lbn lbn' ubn ubn' (nV s1) (lf, uf) HL HU FI (or_introl G)) as [R P].
    eapply ref_bind with (P := fun g => fin lbn lbn' ubn ubn' g /\ zlen (fst g) = n /\ zlen (snd g) = n); [exact R| |].
    { pose proof (LEN (far * o_growFarBounds (q_opts s1))%R s1 NV1) as P2. exact (pc_both _ _ _ P P2). }
    intros [lf' uf'] (G' & A & B). apply IH; auto. eapply owf_same; [|exact W1]; samearr.
  - destruct (is_qps _ _); [|apply ref_refl].
    eapply ref_bind with (P := fun _ => True); [exact (count_ref lbn lbn' ubn ubn' (nV s1) (lf, uf) (q_x s1) _ 0 HL HU G)|apply pc_true|]. intros c _.
    destruct (c =? 0); [apply ref_refl|].
    match goal with |- refines (if ?c then _ else _) _ => destruct c eqn:GE end; [apply ref_refl|].
    assert (FI : (far * o_growFarBounds (q_opts s1) < infty)%R).
    { revert GE. cbn. match goal with |- context [Rleb ?a ?b] => destruct (Rleb_spec a b) end; [discriminate|]. rcar. lra. }
    set (s2 := set_q_status QPS_HOMOTOPYQPSOLVED s1). assert (Q2 : quietB s2) by exact Q1. assert (NV2 : nV s2 = n) by exact NV1.
    assert (W2 : owf (N := N) n s2) by (eapply owf_same; [|exact W1]; unfold s2; samearr).
    rewrite !update_eq by exact Q2.
    destruct (ulim_ref (far * o_growFarBounds (q_opts s1))%R lbn lbn' ubn ubn' (nV s2) (lf, uf) HL HU FI (or_introl G)) as [R P].
    eapply ref_bind with (P := fun g => fin lbn lbn' ubn ubn' g /\ zlen (fst g) = n /\ zlen (snd g) = n); [exact R| |].
    { pose proof (LEN (far * o_growFarBounds (q_opts s1))%R s2 NV2) as P2. exact (pc_both _ _ _ P P2). }
    intros [lf' uf'] (G' & A & B). apply IH; auto. eapply owf_same; [|exact W2]; samearr.
Qed.

Theorem C51_hotstart_QProblemB n fuel (gn : arr) nWSR (s : qpb) x : qok (N := N) n s -> accepted (q_status s) -> (n <= zlen gn)%Z ->
  o_enableFarBounds (q_opts s) = true -> o_enableRamping (q_opts s) = false -> (o_initialFarBounds (q_opts s) < infty)%R ->
  within lbn -> within ubn ->
  hotstart (N := N) junk cpu fuel gn lbn ubn nWSR None s = Ok x ->
  hotstart (N := N) junk cpu fuel gn lbn' ubn' nWSR None s = Ok x.
Proof.
  intros (l0 & l1 & W & _ & HK) A Hg FB RA IF WL WU. specialize (HK (accepted_init _ A)).
  revert x. change (refines (hotstart (N := N) junk cpu fuel gn lbn ubn nWSR None s) (hotstart (N := N) junk cpu fuel gn lbn' ubn' nWSR None s)).
  unfold hotstart. destruct (nV s =? 0); [apply ref_refl|]. cbn [bind]. change (negb (SUCCESSFUL_RETURN =r? SUCCESSFUL_RETURN)) with false. cbv iota.
  eapply ref_bind with (P := fun _ => True); [now apply consistent_ref|apply pc_true|]. intros r2 _. destruct (negb _); [apply ref_refl|]. cbv zeta.
  set (s2 := set_q_count _ s). assert (W2 : qwf (N := N) n s2 l0 l1) by (apply (wf_same n s); [exact W|samearr]).
  eapply ref_bind with (P := fun '(_, s3) => qwf (N := N) n s3 l0 l1 /\ hk s3 /\ oframe (N := N) (q_opts s) (q_opts s3)); [apply ref_refl| |].
  { destruct (q_haveChol s2); [exact (conj W2 (conj HK (oframe_refl _)))|]. apply wp_pc.
    eapply wp_mono; [exact (setupInitialCholesky_safe (N := N) n s2 l0 l1 W2 HK)|]. intros [r3 s3] (X1 & X2 & X3 & _). split; [exact X1|]. split; [exact X2|]. apply X3. }
  intros [r3 s3] (W3 & K3 & O3). destruct (negb (r3 =r? _)); [apply ref_refl|].
  assert (FB3 : o_enableFarBounds (q_opts s3) = true) by (destruct O3 as [e ->]; exact FB).
  assert (Q3 : quietB s3) by (eapply oframe_quietB; eauto).
  assert (IF3 : (o_initialFarBounds (q_opts s3) < infty)%R) by (destruct O3 as [e ->]; exact IF).
  rewrite FB3. cbn [negb]. pose proof (w_n _ _ _ _ W) as Hn. rewrite (w_nv _ _ _ _ W3).
  destruct (extend_ref lbn lbn' ubn ubn' n _ HL HU IF3) as [R1 P1].
  eapply ref_bind; [exact R1|exact P1|]. intros f1 F1. rewrite !update_eq by exact Q3. rewrite (w_nv _ _ _ _ W3).
  destruct (ulim_ref f1 lbn lbn' ubn ubn' n (junk n, junk n) HL HU F1) as [R P]; [right; cbn [fst snd]; rewrite JL; auto|].
  eapply ref_bind with (P := fun g => fin lbn lbn' ubn ubn' g /\ zlen (fst g) = n /\ zlen (snd g) = n); [exact R| |].
  { assert (P2 : pc (ulim f1 lbn ubn n (junk n, junk n)) (fun g => zlen (fst g) = n /\ zlen (snd g) = n)).
    { unfold ulim. apply (pc_for_up (fun g : arr * arr => zlen (fst g) = n /\ zlen (snd g) = n)); [cbn [fst snd]; rewrite JL; lia|]. intros i [l u] [B C]. cbn [fst snd] in *.
      apply pc_any. intros x. apply pc_wr. intros _. apply pc_any. intros y. apply pc_wr. intros _. cbn. rewrite !zlen_zupd. auto. }
    exact (pc_both _ _ _ P P2). }
  intros [lf uf] (G & B & C). apply (farLoopB_ref n); auto. exists l0, l1. exact W3.
Qed.
End LimitsB.

End Far.

(** the hypotheses over the reals: a call with crossed bounds *)
Notation exn_N := (RNumT (1/1000) (1/1000000) 1000).
Definition exn_junk (k : Z) : list R := repeat 0%R (Z.to_nat k).
Definition exn_opt : options exn_N := set_o_enableRamping (N := exn_N) false (set_o_initialFarBounds (N := exn_N) 10%R (set_o_enableFarBounds (N := exn_N) true optDefault)).
Definition exn_s : qp exn_N := p_new (N := exn_N) exn_junk 1 1 HST_UNKNOWN exn_opt.
Example C51_hotstart_ex :
  (forall k, zlen (exn_junk k) = Z.max 0 k) /\ o_enableFarBounds (p_opts exn_s) = true /\ o_enableRamping (p_opts exn_s) = false /\ (o_initialFarBounds (p_opts exn_s) < 1000)%R /\
  hides (- 1000) (Some [(-1000)%R]) None /\ hides 1000 (Some [1%R]) (Some [1%R]) /\ within 1000 (Some [(-1000)%R]) /\ within 1000 (Some [1%R]) /\ within 1000 (Some [2%R]) /\
  exists s', p_hotstart (N := exn_N) exn_junk nocpu 5 [0%R] (Some [2%R]) (Some [1%R]) (Some [(-1000)%R]) (Some [1%R]) 3 None None exn_s = Ok (SUCCESSFUL_RETURN, 3, s') /\ q_infeasible (p_b s') = true.
Proof.
  assert (W : forall v, (-1000 <= v <= 1000)%R -> within 1000 (Some [v])).
  { intros v Hv a [= <-] i Hi. unfold zlen in Hi. cbn in Hi. replace i with 0 by lia. exact Hv. }
  split; [intros k; unfold exn_junk; rewrite zlen_repeat; lia|]. split; [reflexivity|]. split; [reflexivity|]. split; [cbn; lra|].
  split. { right. split; [reflexivity|]. exists [(-1000)%R]. split; [reflexivity|]. intros i Hi. assert (i = 0) by (change (0 <= i < 1) in Hi; lia). subst i. change (IZR (-1000) = Ropp (IZR 1000)). lra. }
  split; [left; reflexivity|]. split; [apply W; lra|]. split; [apply W; lra|]. split; [apply W; lra|].
  eexists. split; [|shelve]. unfold p_hotstart. change (pV exn_s =? 0) with false. cbv iota. cbn [bind]. change (negb (SUCCESSFUL_RETURN =r? SUCCESSFUL_RETURN)) with false. cbv iota.
  assert (E : p_areBoundsConsistent (N := exn_N) (Some [2%R]) (Some [1%R]) (Some [(-1000)%R]) (Some [1%R]) exn_s = Ok RET_QP_INFEASIBLE).
  { unfold p_areBoundsConsistent, areBoundsConsistent. change (nV (p_b exn_s)) with 1. unfold forb_up. change (Z.to_nat (1 - 0)) with 1%nat. cbn [forb_up_n]. change (rd [2%R] 0) with (Ok 2%R). change (rd [1%R] 0) with (Ok 1%R). cbn [bind]. cbn -[exn_s Rltb]. destruct (Rltb_spec (1 + 1/1000) 2); [reflexivity|lra]. }
  rewrite E. cbn [bind]. change (negb (RET_QP_INFEASIBLE =r? SUCCESSFUL_RETURN)) with true. cbv iota. reflexivity.
  Unshelve. reflexivity.
Qed.

(** ** Runs over the rationals without far bounds *)
Local Open Scope Z_scope.
(** the objective of [q_box] *)
Definition box_val (x : list Q) : Q := (zn 0 x 0 * zn 0 x 0 / 2 + zn 0 x 1 * zn 0 x 1 / 2 - 3 * zn 0 x 0 - 5 * zn 0 x 1)%Q.
Definition same_hot (lb ub lbA ubA : option (list Q)) : qp QNum -> res (returnValue * Z * qp QNum) := q_hot [-3;-5]%Q lb ub lbA ubA 10.

(** A hotstart with a null pointer for ub or lb does not return. *)
Theorem C51_refuted_QProblem : exists k1 s1,
  q_box = Ok (SUCCESSFUL_RETURN, k1, s1) /\ q_status (p_b s1) = QPS_SOLVED /\
  same_hot (Some [-10;-10]%Q) None (Some [-10;-10]%Q) (Some [1;1]%Q) s1 = UB /\
  same_hot None (Some [10;10]%Q) (Some [-10;-10]%Q) (Some [1;1]%Q) s1 = UB.
Proof.
  assert (T : match q_box with
              | Ok (SUCCESSFUL_RETURN, k1, s1) => q_status (p_b s1) = QPS_SOLVED /\
                  match same_hot (Some [-10;-10]%Q) None (Some [-10;-10]%Q) (Some [1;1]%Q) s1 with UB => True | _ => False end /\
                  match same_hot None (Some [10;10]%Q) (Some [-10;-10]%Q) (Some [1;1]%Q) s1 with UB => True | _ => False end
              | _ => False
              end) by (vm_compute; auto).
  destruct q_box as [[[[] k1] s1]| |]; try contradiction. destruct T as (S1 & T2 & T3). exists k1, s1.
  destruct (same_hot (Some _) None _ _ s1); try contradiction. destruct (same_hot None _ _ _ s1); try contradiction. auto.
Qed.

(** Dropping the upper limits of the constraints by a null pointer, with all other
    data as before: the hotstart reports a solved problem at (3,3), although (3,5)
    is better and satisfies the remaining limits.  With the infinite values spelled
    out it finds (3,5). *)
Theorem C51_wrong_solution_QProblem : exists k1 s1 k2 s2 k3 s3,
  q_box = Ok (SUCCESSFUL_RETURN, k1, s1) /\ q_status (p_b s1) = QPS_SOLVED /\
  same_hot (Some [-10;-10]%Q) (Some [10;10]%Q) (Some [-10;-10]%Q) None s1 = Ok (SUCCESSFUL_RETURN, k2, s2) /\
  q_status (p_b s2) = QPS_SOLVED /\ map Qred (q_x (p_b s2)) = [3;3]%Q /\
  same_hot (Some [-10;-10]%Q) (Some [10;10]%Q) (Some [-10;-10]%Q) (Some [nINFTY (n := QNum); nINFTY (n := QNum)]) s1 = Ok (SUCCESSFUL_RETURN, k3, s3) /\
  q_status (p_b s3) = QPS_SOLVED /\ map Qred (q_x (p_b s3)) = [3;5]%Q /\ (box_val [3;5] < box_val [3;3])%Q.
Proof.
  assert (T : match q_box with
              | Ok (SUCCESSFUL_RETURN, k1, s1) => q_status (p_b s1) = QPS_SOLVED /\
                  match same_hot (Some [-10;-10]%Q) (Some [10;10]%Q) (Some [-10;-10]%Q) None s1 with
                  | Ok (SUCCESSFUL_RETURN, k2, s2) => q_status (p_b s2) = QPS_SOLVED /\ map Qred (q_x (p_b s2)) = [3;3]%Q | _ => False end /\
                  match same_hot (Some [-10;-10]%Q) (Some [10;10]%Q) (Some [-10;-10]%Q) (Some [nINFTY (n := QNum); nINFTY (n := QNum)]) s1 with
                  | Ok (SUCCESSFUL_RETURN, k3, s3) => q_status (p_b s3) = QPS_SOLVED /\ map Qred (q_x (p_b s3)) = [3;5]%Q | _ => False end
              | _ => False
              end) by (vm_compute; auto 10).
  destruct q_box as [[[[] k1] s1]| |]; try contradiction. destruct T as (S1 & T2 & T3). exists k1, s1.
  destruct (same_hot _ _ _ None s1) as [[[[] k2] s2]| |]; try contradiction. exists k2, s2.
  match type of T3 with match ?m with _ => _ end => destruct m as [[[[] k3] s3]| |] end; try contradiction. exists k3, s3. destruct T2, T3.
  repeat split; auto.
Qed.

(** class QProblemB: the same problem with the limits as bounds *)
Definition b_box : res (returnValue * Z * qpb QNum) :=
  qb_init (N := QNum) ce_junk nocpu 20 (HArr (N := QNum) (Some [1;0;0;1]%Q)) (Some [-3;-5]%Q) (Some [-10;-10]%Q) (Some [1;1]%Q) 10 None None None None
    (qb_new (N := QNum) ce_junk 2 HST_UNKNOWN q_off).
Definition b_hot (ub : option (list Q)) (s : qpb QNum) : res (returnValue * Z * qpb QNum) :=
  hotstart (N := QNum) ce_junk nocpu 20 [-3;-5]%Q (Some [-10;-10]%Q) ub 10 None s.
Theorem C51_wrong_solution_QProblemB : exists k1 s1 k2 s2 k3 s3,
  b_box = Ok (SUCCESSFUL_RETURN, k1, s1) /\ q_status s1 = QPS_SOLVED /\
  b_hot None s1 = Ok (SUCCESSFUL_RETURN, k2, s2) /\ q_status s2 = QPS_SOLVED /\ map Qred (q_x s2) = [3;3]%Q /\
  b_hot (Some [nINFTY (n := QNum); nINFTY (n := QNum)]) s1 = Ok (SUCCESSFUL_RETURN, k3, s3) /\ q_status s3 = QPS_SOLVED /\ map Qred (q_x s3) = [3;5]%Q /\
  (box_val [3;5] < box_val [3;3])%Q.
Proof.
  assert (T : match b_box with
              | Ok (SUCCESSFUL_RETURN, k1, s1) => q_status s1 = QPS_SOLVED /\
                  match b_hot None s1 with Ok (SUCCESSFUL_RETURN, k2, s2) => q_status s2 = QPS_SOLVED /\ map Qred (q_x s2) = [3;3]%Q | _ => False end /\
                  match b_hot (Some [nINFTY (n := QNum); nINFTY (n := QNum)]) s1 with
                  | Ok (SUCCESSFUL_RETURN, k3, s3) => q_status s3 = QPS_SOLVED /\ map Qred (q_x s3) = [3;5]%Q | _ => False end
              | _ => False
              end) by (vm_compute; auto 10).
  destruct b_box as [[[[] k1] s1]| |]; try contradiction. destruct T as (S1 & T2 & T3). exists k1, s1.
  destruct (b_hot None s1) as [[[[] k2] s2]| |]; try contradiction. exists k2, s2.
  match type of T3 with match ?m with _ => _ end => destruct m as [[[[] k3] s3]| |] end; try contradiction. exists k3, s3. destruct T2, T3.
  repeat split; auto.
Qed.

(** with far bounds the two calls agree *)
Definition q_far : options QNum := set_o_enableRamping (N := QNum) false optDefault.
Definition q_box_far : res (returnValue * Z * qp QNum) :=
  q_init 2 2 [1;0;0;1]%Q [-3;-5]%Q [1;0;0;1]%Q [-10;-10]%Q [10;10]%Q [-10;-10]%Q [1;1]%Q 10 q_far.
Definition outcome (r : res (returnValue * Z * qp QNum)) : option (returnValue * Z * QProblemStatus * list Q * list Q) :=
  match r with Ok (r, k, s) => Some (r, k, q_status (p_b s), map Qred (q_x (p_b s)), map Qred (q_y (p_b s))) | _ => None end.
Example C51_ex_far : exists k1 s1, q_box_far = Ok (SUCCESSFUL_RETURN, k1, s1) /\ o_enableFarBounds (p_opts s1) = true /\
  outcome (same_hot (Some [-10;-10]%Q) None (Some [-10;-10]%Q) None s1) = Some (SUCCESSFUL_RETURN, 2, QPS_SOLVED, [3;5]%Q, [0;0;0;0]%Q) /\
  outcome (same_hot (Some [-10;-10]%Q) (Some [nINFTY (n := QNum); nINFTY (n := QNum)]) (Some [-10;-10]%Q) (Some [nINFTY (n := QNum); nINFTY (n := QNum)]) s1) =
    Some (SUCCESSFUL_RETURN, 2, QPS_SOLVED, [3;5]%Q, [0;0;0;0]%Q).
Proof.
  assert (T : match q_box_far with
              | Ok (SUCCESSFUL_RETURN, k1, s1) => o_enableFarBounds (p_opts s1) = true /\
                  outcome (same_hot (Some [-10;-10]%Q) None (Some [-10;-10]%Q) None s1) = Some (SUCCESSFUL_RETURN, 2, QPS_SOLVED, [3;5]%Q, [0;0;0;0]%Q) /\
                  outcome (same_hot (Some [-10;-10]%Q) (Some [nINFTY (n := QNum); nINFTY (n := QNum)]) (Some [-10;-10]%Q) (Some [nINFTY (n := QNum); nINFTY (n := QNum)]) s1) =
                    Some (SUCCESSFUL_RETURN, 2, QPS_SOLVED, [3;5]%Q, [0;0;0;0]%Q)
              | _ => False end) by (vm_compute; auto).
  destruct q_box_far as [[[[] k1] s1]| |]; try contradiction. exists k1, s1. destruct T as (A & B & C). auto.
Qed.

Print Assumptions C51_init_QProblemB.
Print Assumptions C51_init_QProblem.
Print Assumptions C51_deref_QProblem.
Print Assumptions C51_hotstart_QProblem.
Print Assumptions C51_hotstart_QProblemB.
Print Assumptions C51_refuted_QProblem.
Print Assumptions C51_wrong_solution_QProblem.
Print Assumptions C51_wrong_solution_QProblemB.
