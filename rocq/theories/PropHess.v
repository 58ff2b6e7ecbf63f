(** The type of the Hessian (C58) and the value of the objective (C59). *)
From Coq Require Import QArith.
From Verif Require Import Base Types Num Options Indexlist IndexlistProofs Loops RSum LinSpec SafeLib SubjectTo SubjectToProofs SubjectToProofs2
  Flipper PropFlipper Matrices MatLib MatSafe PropDense CsLib PropSparse PropSparse2 LinAlg PropLinAlg QProblemB QPBSafe QPBSafe6 QPBEx QPBX1 QPBX2 QPBX4 QPBX5 PropChol PropAux.
Local Open Scope R_scope.

Section PropHess.
Variables eps zero infty : R.
Notation N := (RNumT eps zero infty).
Notation arr := (list R).
Notation hess := (hess eps zero infty).

(** ** C58 *)
(** the n x n matrix stored in M *)
Definition represents (n : Z) (M : symmat N) (Hm : Z -> Z -> R) : Prop :=
  match M with
  | SDense A => wf_dense A /\ d_nr A = n /\ d_nc A = n /\ forall i j, Hm i j = dmat A i j
  | SSparse A => wf_sparse A /\ s_nr A = n /\ s_nc A = n /\ (exists jd, s_jd A = Some jd /\ diag_info n (s_jc A) (s_ir A) jd) /\ forall i j, Hm i j = smat A i j
  end.
(** M shows no entry outside the diagonal: none exceeds EPS, none is stored *)
Definition diagonal (n : Z) (M : symmat N) : Prop :=
  match M with
  | SDense A => forall i j, (0 <= i < n)%Z -> (0 <= j < n)%Z -> i <> j -> Rabs (dmat A i j) <= eps
  | SSparse A => forall i j, (0 <= j < n)%Z -> stored (s_jc A) (s_ir A) j i -> i = j
  end.

Lemma isDiag_exact n M Hm : 0 <= eps -> represents n M Hm ->
  exists b, m_isDiag (N := N) M = Ok b /\ (b = true <-> diagonal n M) /\
    (b = true -> forall i j, (0 <= i < n)%Z -> (0 <= j < n)%Z -> i <> j -> Rabs (Hm i j) <= eps).
Proof.
  intros He R. destruct M as [A|A]; cbn in R |- *.
  - destruct R as (WF & Hr & Hc & E). destruct (C26_dense_isDiag eps zero infty A WF) as (b & Eb & K). rewrite Hr, Hc in K. exists b. split; [exact Eb|].
    split; [split; [intros T; apply K, T|intros D; apply K; auto]|]. intros T i j Hi Hj NE. rewrite E. now apply (proj2 (proj1 K T)).
  - destruct R as (WF & Hr & Hc & _ & E). destruct (C26_sparse_isDiag eps zero infty A WF) as (b & Eb & K & Z). rewrite Hr, Hc in K, Z. exists b. split; [exact Eb|].
    split; [split; [intros T i j; apply K, T|intros D; apply K; auto]|]. intros T i j Hi Hj NE. rewrite E, (Z T i j Hi Hj NE), Rabs_R0. exact He.
Qed.
Lemma diag_exact n M Hm i : represents n M Hm -> (0 <= i < n)%Z -> m_diag (N := N) M i = Ok (Hm i i).
Proof.
  intros R Hi. destruct M as [A|A]; cbn in R |- *.
  - destruct R as (WF & Hr & Hc & E). rewrite E. apply C26_dense_diag; auto; lia.
  - destruct R as (WF & Hr & Hc & (jd & J & DI) & E). rewrite E. apply (C26_sparse_diag _ _ _ A jd); auto; rewrite Hc; auto.
Qed.

(** what the detection says about a matrix of unknown type *)
Definition detected (n : Z) (M : symmat N) (Hm : Z -> Z -> R) (flipping : bool) (h : HessianType) (r : returnValue) : Prop :=
  match h with
  | HST_IDENTITY => r = SUCCESSFUL_RETURN /\ forall i j, (0 <= i < n)%Z -> (0 <= j < n)%Z -> Rabs (Hm i j - (if (i =? j)%Z then 1 else 0)) <= eps
  | HST_ZERO => r = SUCCESSFUL_RETURN /\ forall i j, (0 <= i < n)%Z -> (0 <= j < n)%Z -> Rabs (Hm i j) <= eps
  | HST_INDEF => r = (if flipping then SUCCESSFUL_RETURN else RET_HESSIAN_INDEFINITE) /\ exists i, (0 <= i < n)%Z /\ Hm i i < - zero
  | HST_POSDEF => (r = SUCCESSFUL_RETURN /\ (diagonal n M -> forall i, (0 <= i < n)%Z -> - zero <= Hm i i < infty)) \/
                  (r = RET_DIAGONAL_NOT_INITIALISED /\ exists i, (0 <= i < n)%Z /\ infty <= Hm i i)
  | _ => False
  end.

Lemma hessian_type n (s : qpb N) M Hm : 0 <= eps -> (0 <= n)%Z -> nV s = n -> q_H s = Some M -> represents n M Hm ->
  exists r s', determineHessianType (N := N) s = Ok (r, s') /\
    (exists o, s' = set_q_htype (N := N) (q_htype s') (set_q_opts (N := N) o s)) /\
    (q_htype s' <> HST_ZERO -> q_opts s' = q_opts s) /\ (q_htype s' = HST_ZERO -> o_enableRegularisation (q_opts s') = true) /\
    (q_htype s <> HST_UNKNOWN -> r = SUCCESSFUL_RETURN /\ q_htype s' = q_htype s) /\
    (q_htype s = HST_UNKNOWN -> detected n M Hm (o_enableFlippingBounds (q_opts s)) (q_htype s') r).
Proof.
  intros He Hn EV HM RM. destruct (isDiag_exact n M Hm He RM) as (b & Eb & Db & Ob).
  assert (Self : forall h, set_q_htype (N := N) h s = set_q_htype (N := N) h (set_q_opts (N := N) (q_opts s) s)) by reflexivity.
  assert (Keep : determineHessianType (N := N) s = Ok (SUCCESSFUL_RETURN, s) -> q_htype s <> HST_ZERO -> q_htype s <> HST_UNKNOWN -> exists r s', determineHessianType (N := N) s = Ok (r, s') /\
    (exists o, s' = set_q_htype (N := N) (q_htype s') (set_q_opts (N := N) o s)) /\
    (q_htype s' <> HST_ZERO -> q_opts s' = q_opts s) /\ (q_htype s' = HST_ZERO -> o_enableRegularisation (q_opts s') = true) /\
    (q_htype s <> HST_UNKNOWN -> r = SUCCESSFUL_RETURN /\ q_htype s' = q_htype s) /\
    (q_htype s = HST_UNKNOWN -> detected n M Hm (o_enableFlippingBounds (q_opts s)) (q_htype s') r)).
  { intros E Z U. exists SUCCESSFUL_RETURN, s. split; [exact E|]. split; [exists (q_opts s); destruct s; reflexivity|]. split; [auto|]. split; [intros X; contradiction|]. split; [auto|intros X; contradiction]. }
  assert (ZR : forall s1, q_htype (ensure_regularisation (N := N) s1) = q_htype s1 /\ o_enableRegularisation (q_opts (ensure_regularisation (N := N) s1)) = true /\
     exists o, ensure_regularisation (N := N) s1 = set_q_opts (N := N) o s1).
  { intros s1. unfold ensure_regularisation. destruct (o_enableRegularisation (q_opts s1)) eqn:E; [split; [auto|split; [auto|exists (q_opts s1); destruct s1; reflexivity]]|].
    split; [reflexivity|]. split; [reflexivity|]. eexists; reflexivity. }
  destruct (q_htype s) eqn:HT; try (apply Keep; [unfold determineHessianType; rewrite HT, ?HM; reflexivity|congruence|congruence]); unfold determineHessianType; rewrite HT.
  - (* preset zero *) destruct (ZR s) as (A & B & o & C). eexists _, _. split; [reflexivity|].
    split; [exists o; rewrite A, HT, C; destruct s; cbn in *; subst; reflexivity|]. rewrite A, HT. split; [congruence|]. split; [auto|]. split; [auto|discriminate].
  - (* unknown *) cbv zeta. rewrite HM, Eb. cbn [bind]. destruct b; cbn [negb].
    2:{ eexists _, _. split; [reflexivity|]. split; [exists (q_opts s); reflexivity|]. split; [auto|]. split; [discriminate|]. split; [congruence|]. intros _. left. split; [reflexivity|]. intros D. apply Db in D. discriminate D. }
    set (s1 := set_q_htype (N := N) HST_POSDEF s). assert (EN : nV s1 = n) by exact EV. rewrite EN.
    match goal with |- context [bind ?m _] => assert (L : wp m (fun c => match c with
      | Brk (r, s') => (r = RET_DIAGONAL_NOT_INITIALISED /\ s' = s1 /\ exists i, (0 <= i < n)%Z /\ infty <= Hm i i) \/
           (r = (if o_enableFlippingBounds (q_opts s) then SUCCESSFUL_RETURN else RET_HESSIAN_INDEFINITE) /\ s' = set_q_htype (N := N) HST_INDEF s /\ exists i, (0 <= i < n)%Z /\ Hm i i < - zero)
      | Next (isId, isZ) => (forall i, (0 <= i < n)%Z -> - zero <= Hm i i < infty) /\
           (isId = true -> forall i, (0 <= i < n)%Z -> Rabs (Hm i i - 1) <= eps) /\ (isZ = true -> forall i, (0 <= i < n)%Z -> Rabs (Hm i i) <= eps) end)) end.
    { apply wp_forb_up with
        (I := fun k '(isId, isZ) => (forall i, (0 <= i < k)%Z -> - zero <= Hm i i < infty) /\
           (isId = true -> forall i, (0 <= i < k)%Z -> Rabs (Hm i i - 1) <= eps) /\ (isZ = true -> forall i, (0 <= i < k)%Z -> Rabs (Hm i i) <= eps))
        (J := fun '(r, s') => (r = RET_DIAGONAL_NOT_INITIALISED /\ s' = s1 /\ exists i, (0 <= i < n)%Z /\ infty <= Hm i i) \/
           (r = (if o_enableFlippingBounds (q_opts s) then SUCCESSFUL_RETURN else RET_HESSIAN_INDEFINITE) /\ s' = set_q_htype (N := N) HST_INDEF s /\ exists i, (0 <= i < n)%Z /\ Hm i i < - zero));
        [lia|repeat split; intros; lia| |intros [a c]; auto|intros [r s']; auto].
      intros k [isId isZ] Hk (P & Q & R). rewrite (diag_exact n M Hm k RM Hk). cbn [bind]. rnum. change (Rlit 1 0) with 1.
      destruct (Rleb_spec infty (Hm k k)) as [X|X]; [cbn [wp]; left; eauto|].
      destruct (Rltb_spec (Hm k k) (- zero)) as [Y|Y]; [cbn [wp]; right; eauto|]. cbn [wp].
      assert (Up : forall P' : Z -> Prop, (forall i, (0 <= i < k)%Z -> P' i) -> P' k -> forall i, (0 <= i < k + 1)%Z -> P' i)
        by (intros P' A B i Hi; destruct (Z.eq_dec i k) as [->|]; [exact B|apply A; lia]).
      split; [apply Up; [exact P|lra]|]. split.
      - destruct (Rltb_spec eps (Rabs (Hm k k - 1))) as [V|V]; [discriminate|]. intros T. apply Up; [auto|lra].
      - destruct (Rltb_spec eps (Rabs (Hm k k))) as [V|V]; [discriminate|]. intros T. apply Up; [auto|lra]. }
    apply wp_inv in L as (c & Ec & L). rewrite Ec. cbn [bind]. destruct c as [(isId, isZ)|(r, s')].
    + destruct L as (P & Q & R). destruct isZ.
      * destruct (ZR (set_q_htype (N := N) HST_ZERO (if isId then set_q_htype (N := N) HST_IDENTITY s1 else s1))) as (A & B & o & C).
        eexists _, _. split; [reflexivity|]. rewrite A. cbn [q_htype set_q_htype]. split; [exists o; rewrite C; destruct isId; reflexivity|]. split; [congruence|]. split; [auto|]. split; [congruence|]. intros _.
        cbn. split; [reflexivity|]. intros i j Hi Hj. destruct (Z.eq_dec i j) as [->|NE]; [now apply R|now apply Ob].
      * destruct isId; (eexists _, _; split; [reflexivity|]; split; [exists (q_opts s); reflexivity|]; split; [auto|]; split; [discriminate|]; split; [congruence|]; intros _; cbn).
        -- split; [reflexivity|]. intros i j Hi Hj. destruct (Z.eqb_spec i j) as [->|NE]; [now apply Q|]. rewrite Rminus_0_r. now apply Ob.
        -- left. split; [reflexivity|]. intros _. exact P.
    + destruct L as [(-> & -> & X)|(-> & -> & X)]; (eexists _, _; split; [reflexivity|]; split; [exists (q_opts s); reflexivity|]; split; [auto|]; split; [discriminate|]; split; [congruence|]; intros _; cbn).
      * right. auto.
      * auto.
Qed.

(** For every Hessian given as a matrix: the detection terminates without error; a
    preset type is kept; an unknown type is replaced by one that fits the entries;
    only a zero Hessian changes the options, switching regularisation on. *)
Theorem C58_hessian_type n (s : qpb N) l0 l1 M Hm : 0 <= eps -> qwf n s l0 l1 -> q_H s = Some M -> represents n M Hm ->
  exists r s', determineHessianType (N := N) s = Ok (r, s') /\
    (exists o, s' = set_q_htype (N := N) (q_htype s') (set_q_opts (N := N) o s)) /\
    (q_htype s' <> HST_ZERO -> q_opts s' = q_opts s) /\ (q_htype s' = HST_ZERO -> o_enableRegularisation (q_opts s') = true) /\
    (q_htype s <> HST_UNKNOWN -> r = SUCCESSFUL_RETURN /\ q_htype s' = q_htype s) /\
    (q_htype s = HST_UNKNOWN -> detected n M Hm (o_enableFlippingBounds (q_opts s)) (q_htype s') r).
Proof. intros He W. apply hessian_type; [exact He|pose proof (w_n _ _ _ _ W); lia|exact (w_nv _ _ _ _ W)]. Qed.

(** without a matrix the Hessian counts as zero, unless the identity was preset *)
Theorem C58_no_matrix (s : qpb N) : q_H s = None -> exists s', determineHessianType (N := N) s = Ok (SUCCESSFUL_RETURN, s') /\
  q_htype s' = (match q_htype s with HST_IDENTITY => HST_IDENTITY | _ => HST_ZERO end).
Proof.
  intros HM. unfold determineHessianType, ensure_regularisation. rewrite HM.
  destruct (q_htype s) eqn:E; eexists; (split; [reflexivity|]); try (destruct (o_enableRegularisation _)); cbn; auto.
Qed.

(** ** C59 *)
Definition objective (n : Z) (Hm : Z -> Z -> R) (g x : Z -> R) : R := / 2 * rsum 0 n (fun i => x i * matvec n Hm x i) + rsum 0 n (fun i => g i * x i).

Lemma acc_exact n (f : Z -> R) (body : Z -> R -> res R) v0 : (0 <= n)%Z -> (forall i v, (0 <= i < n)%Z -> body i v = Ok (v + f i)) ->
  for_up 0 n body v0 = Ok (v0 + rsum 0 n f).
Proof.
  intros Hn B. assert (W : wp (for_up 0 n body v0) (fun v => v = v0 + rsum 0 n f)).
  { apply wp_for_up with (I := fun k (v : R) => v = v0 + rsum 0 k f); [lia|rewrite rsum_empty by lia; lra| |auto].
    intros k v Hk ->. rewrite B by exact Hk. cbn [wp]. rewrite rsum_last by lia. lra. }
  apply wp_inv in W as (v & E & ->). exact E.
Qed.

(** the value computed for any x of the right length, for every Hessian type.  Hm
    is the Hessian the solver works with. *)
Theorem C59_objective (junk : Z -> arr) n (s : qpb N) l0 l1 Hm (x : arr) : junk_ok (N := N) junk -> qwf n s l0 l1 -> hess n s Hm -> zlen x = n ->
  getObjValAt (N := N) junk s x = Ok (objective n Hm (zn 0 (q_g s)) (zn 0 x) +
    (if usingReg s && negb (is_hst (q_htype s) HST_ZERO) then / 2 * q_regVal s * rsum 0 n (fun i => zn 0 x i * zn 0 x i) else 0)).
Proof.
  intros J W HE Lx. unfold getObjValAt. rewrite (w_nv _ _ _ _ W). pose proof (w_n _ _ _ _ W) as Hn. pose proof (w_g _ _ _ _ W) as Lg. rcar.
  destruct (Z.eqb_spec n 0) as [X|_]; [lia|]. cbv zeta.
  assert (HF : Rlit 5 (-1) = / 2) by (change (5 / 10 = / 2); lra).
  set (gx := rsum 0 n (fun i => zn 0 (q_g s) i * zn 0 x i)).
  rewrite (acc_exact n (fun i => zn 0 (q_g s) i * zn 0 x i)); [|lia|].
  2:{ intros i v Hi. rewrite (rd_ok 0) by (rcar; lia). cbn [bind]. rewrite (rd_ok 0) by (rcar; lia). cbn [bind]. rnum. f_equal. ring. }
  cbn [bind]. fold gx.
  assert (Reg : forall v : R, (if usingReg s then for_up 0 n (fun i (v : R) => a <- rd x i ;; Ok (v + Rlit 5 (-1) * a * q_regVal s * a)) v else Ok v) =
    Ok (v + (if usingReg s then / 2 * q_regVal s * rsum 0 n (fun i => zn 0 x i * zn 0 x i) else 0))).
  { intros v. destruct (usingReg s); [|f_equal; ring].
    rewrite (acc_exact n (fun i => / 2 * q_regVal s * (zn 0 x i * zn 0 x i))); [|lia|].
    2:{ intros i w Hi. rewrite (rd_ok 0) by (rcar; lia). cbn [bind]. rnum. rewrite HF. f_equal. ring. }
    now rewrite <- rsum_scal. }
  assert (Plain : (exists M, q_H s = Some M /\ mat_ok eps zero infty n M Hm) ->
    (M <- q_theH (N := N) s ;; Hx <- m_times (N := N) M 1 n1 x n n0 (junk n) n ;;
     for_up 0 n (fun i (v : R) => a <- rd x i ;; b <- rd Hx i ;; Ok (v + Rlit 5 (-1) * a * b)) (0 + gx)) = Ok (objective n Hm (zn 0 (q_g s)) (zn 0 x))).
  { intros (M & EM & MO). unfold q_theH. rewrite EM. cbn [bind].
    destruct (mo_times _ _ _ _ _ _ MO (n1 (N := N)) (n0 (N := N)) x (junk n) (or_introl eq_refl) (or_introl eq_refl) Lx (J n ltac:(lia))) as (Hx & E & L & V).
    rewrite E. cbn [bind]. assert (L' : zlen Hx = n) by (etransitivity; [exact L|apply J; lia]). clear L. change (n1 (N := N)) with 1 in V. change (n0 (N := N)) with 0 in V.
    rewrite (acc_exact n (fun i => / 2 * (zn 0 x i * matvec n Hm (zn 0 x) i))); [|lia|].
    2:{ intros i v Hi. rewrite (rd_ok 0) by (rcar; lia). cbn [bind]. rewrite (rd_ok 0) by (rcar; lia). cbn [bind]. rnum. rewrite HF. f_equal. rewrite V by exact Hi. ring. }
    unfold objective, gx. rewrite <- rsum_scal. f_equal. lra. }
  unfold QPBX2.hess in HE.
  assert (Fin : forall h : HessianType, is_hst h HST_ZERO = false -> (exists M, q_H s = Some M /\ mat_ok eps zero infty n M Hm) ->
    (v <- (M <- q_theH (N := N) s ;; Hx <- m_times (N := N) M 1 n1 x n n0 (junk n) n ;;
     for_up 0 n (fun i (v : R) => a <- rd x i ;; b <- rd Hx i ;; Ok (v + Rlit 5 (-1) * a * b)) (0 + gx)) ;;
     (if usingReg s then for_up 0 n (fun i (v : R) => a <- rd x i ;; Ok (v + Rlit 5 (-1) * a * q_regVal s * a)) v else Ok v)) =
    Ok (objective n Hm (zn 0 (q_g s)) (zn 0 x) + (if usingReg s && negb (is_hst h HST_ZERO) then / 2 * q_regVal s * rsum 0 n (fun i => zn 0 x i * zn 0 x i) else 0))).
  { intros h EZ HP. rewrite (Plain HP). cbn [bind]. rewrite Reg, EZ. cbn [negb]. now rewrite andb_true_r. }
  destruct (q_htype s) eqn:HT; try (match goal with |- context [is_hst ?h HST_ZERO] => exact (Fin h eq_refl HE) end); clear Fin Plain.
  - (* zero *) cbn [bind]. etransitivity; [exact (Reg (0 + gx))|]. change (is_hst HST_ZERO HST_ZERO) with true. cbn [negb]. rewrite andb_false_r. f_equal. unfold objective. fold gx.
    destruct (usingReg s).
    + rewrite (rsum_ext 0 n (fun i => zn 0 x i * matvec n Hm (zn 0 x) i) (fun i => q_regVal s * (zn 0 x i * zn 0 x i))).
      2:{ intros i Hi. replace (matvec n Hm (zn 0 x) i) with (q_regVal s * zn 0 x i); [ring|]. rewrite <- (matvec_delta n) by exact Hi. unfold matvec. apply rsum_ext. intros j _. now rewrite HE. }
      rewrite rsum_scal. ring.
    + rewrite (rsum_0 0 n (fun i => zn 0 x i * matvec n Hm (zn 0 x) i)); [ring|]. intros i Hi. unfold matvec. rewrite rsum_0; [ring|]. intros j _. rewrite HE. ring.
  - (* identity *) rewrite (acc_exact n (fun i => / 2 * (zn 0 x i * zn 0 x i))); [|lia|].
    2:{ intros i v Hi. rewrite (rd_ok 0) by (rcar; lia). cbn [bind]. rnum. rewrite HF. f_equal. ring. }
    cbn [bind]. etransitivity; [exact (Reg _)|]. change (is_hst HST_IDENTITY HST_ZERO) with false. cbn [negb]. rewrite andb_true_r. f_equal. f_equal. unfold objective. fold gx.
    rewrite (rsum_ext 0 n (fun i => zn 0 x i * matvec n Hm (zn 0 x) i) (fun i => zn 0 x i * zn 0 x i)).
    2:{ intros i Hi. replace (matvec n Hm (zn 0 x) i) with (zn 0 x i); [ring|]. rewrite <- (Rmult_1_l (zn 0 x i)) at 1. rewrite <- (matvec_delta n) by exact Hi. unfold matvec. apply rsum_ext. intros j _. rewrite HE. ring. }
    rewrite rsum_scal. change (n0 (N := N)) with 0. ring.
Qed.
End PropHess.

(** ** Counterexamples *)
(** *** C58: a matrix with entries outside the diagonal counts as positive definite
    whatever its diagonal is *)
Definition ce_indef : qpb QNum := qb_setH (HArr (N := QNum) (Some [-1; 1; 1; -1]%Q)) (qb_new (N := QNum) ce_junk 2 HST_UNKNOWN optDefault).
Definition ce_indef_run := determineHessianType (N := QNum) ce_indef.
Theorem C58_refuted : exists s', ce_indef_run = Ok (SUCCESSFUL_RETURN, s') /\ q_htype s' = HST_POSDEF /\
  m_diag (N := QNum) (SDense (N := QNum) (mkDense 2 2 2 [-1; 1; 1; -1]%Q)) 0 = Ok (-1)%Q /\ q_H s' = Some (SDense (N := QNum) (mkDense 2 2 2 [-1; 1; 1; -1]%Q)).
Proof.
  assert (T : match ce_indef_run with Ok (SUCCESSFUL_RETURN, s') => q_htype s' = HST_POSDEF /\
      m_diag (N := QNum) (SDense (N := QNum) (mkDense 2 2 2 [-1; 1; 1; -1]%Q)) 0 = Ok (-1)%Q /\ q_H s' = Some (SDense (N := QNum) (mkDense 2 2 2 [-1; 1; 1; -1]%Q)) | _ => False end)
    by (vm_compute; auto).
  destruct ce_indef_run as [(r & s')| |]; try contradiction. destruct r; try contradiction. eauto.
Qed.
(** a preset type is lost when no matrix is given *)
Theorem C58_preset_refuted : exists s', determineHessianType (N := QNum) (qb_new (N := QNum) ce_junk 1 HST_POSDEF optDefault) = Ok (SUCCESSFUL_RETURN, s') /\ q_htype s' = HST_ZERO.
Proof. eexists. split; vm_compute; reflexivity. Qed.

(** *** C59: min 1/2 x^2 - x, -10 <= x <= 10, declared semidefinite, regularisation on.
    The solver adds regVal to the Hessian, and getObjVal adds it once more. *)
Definition ce_reg_run := qb_init (N := QNum) ce_junk (fun _ => false) 10 (HArr (N := QNum) (Some [1%Q])) (Some [(-1)%Q]) (Some [(-10)%Q]) (Some [10%Q]) 10 None None None None
  (qb_new (N := QNum) ce_junk 1 HST_SEMIDEF (set_o_enableRegularisation (N := QNum) true optDefault)).
Definition ce_value (m : res (returnValue * Z * qpb QNum)) : option (Q * Q * Q) :=
  match m with
  | Ok (SUCCESSFUL_RETURN, _, s') => match q_x s', getObjVal (N := QNum) ce_junk s' with [x], Ok v => Some (x, v, q_regVal s') | _, _ => None end
  | _ => None end.
Theorem C59_refuted : exists x v r : Q, ce_value ce_reg_run = Some (x, v, r) /\
  Qeq_bool v ((1 # 2) * x * x - x)%Q = false /\ Qeq_bool v ((1 # 2) * x * x - x + r * x * x)%Q = true.
Proof.
  assert (T : match ce_value ce_reg_run with Some (x, v, r) =>
    Qeq_bool v ((1 # 2) * x * x - x)%Q = false /\ Qeq_bool v ((1 # 2) * x * x - x + r * x * x)%Q = true | None => False end) by (vm_compute; auto).
  destruct (ce_value ce_reg_run) as [((x & v) & r)|]; [|contradiction]. exists x, v, r. auto.
Qed.
(** min x, -1 <= x <= 1, no Hessian: the value is not that of the linear program *)
Definition ce_lp_run := qb_init (N := QNum) ce_junk (fun _ => false) 10 (HArr (N := QNum) None) (Some [1%Q]) (Some [(-1)%Q]) (Some [1%Q]) 10 None None None None
  (qb_new (N := QNum) ce_junk 1 HST_UNKNOWN optDefault).
Theorem C59_zero_refuted : exists x v r : Q, ce_value ce_lp_run = Some (x, v, r) /\ Qeq_bool x (-1) = true /\
  Qeq_bool v x = false /\ Qeq_bool v (x + (1 # 2) * r * x * x)%Q = true.
Proof.
  assert (T : match ce_value ce_lp_run with Some (x, v, r) => Qeq_bool x (-1) = true /\
    Qeq_bool v x = false /\ Qeq_bool v (x + (1 # 2) * r * x * x)%Q = true | None => False end) by (vm_compute; auto).
  destruct (ce_value ce_lp_run) as [((x & v) & r)|]; [|contradiction]. exists x, v, r. auto.
Qed.

(** ** The hypotheses can be met *)
Example C58_ex : exists M, q_H ex_s = Some M /\ represents (1/1000) (1/1000000) 1000 2 M ex_Hm /\ qwf 2 ex_s [0%Z] [1%Z].
Proof.
  exists (SDense (N := ex_N) ex_H). split; [reflexivity|]. split; [|exact ex_s_wf]. cbn. split; [|repeat split; reflexivity]. repeat split; cbn; unfold zlen; cbn; lia.
Qed.
Example C59_ex : getObjValAt (N := ex_N) ex_junk ex_s [1; 2] = Ok (objective 2 ex_Hm (zn 0 (q_g ex_s)) (zn 0 [1; 2])).
Proof.
  assert (JK : junk_ok (N := ex_N) ex_junk) by (intros k Hk; unfold ex_junk; rewrite zlen_repeat; lia).
  etransitivity; [exact (C59_objective (1/1000) (1/1000000) 1000 ex_junk 2 ex_s [0%Z] [1%Z] ex_Hm [1; 2] JK ex_s_wf ex_hess eq_refl)|].
  assert (U : usingReg ex_s = false) by (change (Rltb (1/1000000) 0 = false); apply Rltb_false; lra).
  match goal with |- Ok (_ + (if ?b && _ then _ else _)) = _ => replace b with false by (symmetry; exact U) end. cbn [andb]. f_equal. apply Rplus_0_r.
Qed.

Print Assumptions C58_hessian_type.
Print Assumptions C58_no_matrix.
Print Assumptions C58_refuted.
Print Assumptions C58_preset_refuted.
Print Assumptions C59_objective.
Print Assumptions C59_refuted.
Print Assumptions C59_zero_refuted.
