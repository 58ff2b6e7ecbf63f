(** C34: the step direction solves the linearised optimality system.  Exact
    arithmetic, any constants, Hessians of every type and storage. *)
From Coq Require Import QArith.
From Verif Require Import Base Types Num Options Indexlist IndexlistProofs Loops RSum LinSpec SafeLib SubjectTo SubjectToProofs SubjectToProofs2
  Flipper PropFlipper Matrices MatLib MatSafe PropDense LinAlg PropLinAlg QProblemB QPBSafe QPBSafe2 QPBSafe3 QPBSafe6 QPBEx QPBX1 QPBX2 QPBX3 QPBX4 QPBX5 QPBX6 QPBX7
  PropChol PropAux PropOptions.
Local Open Scope R_scope.

Section C34.
Variables eps zero infty : R.
Notation N := (RNumT eps zero infty).
Notation arr := (list R).
Notation sv := (sv eps zero infty).

(** ** Specification *)
(** the full-length directions stored in compressed form: [l0] lists the free
    variables, [l1] the fixed ones; free multipliers do not move *)
Definition unpacks (l0 l1 : list Z) (d : deltas N) (dx dy : Z -> R) : Prop :=
  (forall p, (0 <= p < zlen l0)%Z -> dx (zz l0 p) = zn 0 (dl_xFR d) p /\ dy (zz l0 p) = 0) /\
  (forall q, (0 <= q < zlen l1)%Z -> dx (zz l1 q) = zn 0 (dl_xFX d) q /\ dy (zz l1 q) = zn 0 (dl_yFX d) q).
(** H dx + dg = dy; fixed variables move with their bounds, unless the caller
    says that these do not move ([isZ]) *)
Definition linearised (n : Z) (Hm : Z -> Z -> R) (s : qpb N) (isZ : bool) (dg dlb dub : arr) (dx dy : Z -> R) : Prop :=
  forall i, (0 <= i < n)%Z -> matvec n Hm dx i + zn 0 dg i = dy i /\
    match sv s i with
    | ST_INACTIVE => dy i = 0
    | ST_LOWER => dx i = if isZ then 0 else zn 0 dlb i
    | ST_UPPER => dx i = if isZ then 0 else zn 0 dub i
    | _ => False
    end.

(** the refinement loop never adds the same direction twice *)
Definition refines_soundly (s : qpb N) (l0 : list Z) : Prop :=
  q_htype s = HST_ZERO -> l0 = [] \/ 0 < o_epsIterRef (q_opts s) \/ o_numRefinementSteps (q_opts s) = 0%Z.

(** ** Proof *)
Theorem C34_step_direction n (s : qpb N) l0 l1 Hm (d : deltas N) isZ :
  qwf n s l0 l1 -> hess eps zero infty n s Hm -> exact_factor eps zero infty n s Hm -> dwf n d ->
  (forall i, (0 <= i < n)%Z -> settled (sv s i)) -> (0 <= o_numRefinementSteps (q_opts s))%Z -> refines_soundly s l0 ->
  exists rv d' s', determineStepDirection (N := N) d isZ s = Ok (rv, d', s') /\
    (exists tmp, s' = set_q_tmp (N := N) tmp s) /\ dl_g d' = dl_g d /\ dl_lb d' = dl_lb d /\ dl_ub d' = dl_ub d /\
    (rv = RET_STEPDIRECTION_FAILED_CHOLESKY \/
     rv = SUCCESSFUL_RETURN /\ (exists dx dy, unpacks l0 l1 d' dx dy) /\
       forall dx dy, unpacks l0 l1 d' dx dy -> linearised n Hm s isZ (dl_g d) (dl_lb d) (dl_ub d) dx dy).
Proof.
  intros W HE EF DW SE NR RS. pose proof (EF l0 (w_rep0 _ _ _ _ W)) as CH.
  assert (DF : forall i, (0 <= i < n)%Z -> sv s i <> ST_UNDEFINED) by (intros i Hi E; destruct (SE i Hi) as [X|[X|X]]; rewrite X in E; discriminate E).
  destruct (wp_inv _ _ (stepDirection_exact eps zero infty n s l0 l1 Hm W HE CH d DW isZ NR RS)) as (((rv & d') & s') & E & (tmp & _ & ->) & DW' & P).
  exists rv, d', (set_q_tmp (N := N) tmp s). split; [exact E|]. split; [eauto|].
  destruct P as [(-> & E1 & E2 & E3)|(-> & D)]; [auto 6|]. pose proof D as [D1 D2 D3 _ DX DR DM]. do 3 (split; [assumption|]). right. split; [reflexivity|].
  assert (N0 : NoDup l0) by exact (rep_NoDup _ _ (w_rep0 _ _ _ _ W)). assert (N1 : NoDup l1) by exact (rep_NoDup _ _ (w_rep1 _ _ _ _ W)).
  split.
  { exists (fun i => spread l0 (fun p => zn 0 (dl_xFR d') p) i + spread l1 (fun p => zn 0 (dl_xFX d') p) i), (spread l1 (fun p => zn 0 (dl_yFX d') p)).
    assert (Z1 : forall f p, (0 <= p < zlen l0)%Z -> spread l1 f (zz l0 p) = 0).
    { intros f p Hp. unfold spread. apply rsum_0. intros q Hq. rewrite delta_ne; [ring|]. intros X. now apply (apart eps zero infty n s l0 l1 W p q Hp Hq). }
    assert (Z0 : forall f q, (0 <= q < zlen l1)%Z -> spread l0 f (zz l1 q) = 0).
    { intros f q Hq. unfold spread. apply rsum_0. intros p Hp. rewrite delta_ne; [ring|]. now apply (apart eps zero infty n s l0 l1 W p q Hp Hq). }
    split; intros p Hp; rewrite ?(spread_at l0), ?(spread_at l1), ?Z0, ?Z1 by auto; split; auto; ring. }
  intros dx dy (U0 & U1) i Hi.
  assert (MV : matvec n Hm dx i = rsum 0 (zlen l0) (fun k => Hm i (zz l0 k) * zn 0 (dl_xFR d') k) + rsum 0 (zlen l1) (fun k => Hm i (zz l1 k) * zn 0 (dl_xFX d') k)).
  { unfold matvec. rewrite (split_sum eps zero infty n s l0 l1 W) by exact DF. f_equal; apply rsum_ext; intros k Hk; [now rewrite (proj1 (U0 k Hk))|now rewrite (proj1 (U1 k Hk))]. }
  destruct (covered eps zero infty n s l0 l1 W i DF Hi) as [(p & Hp & <-)|(q & Hq & <-)].
  - specialize (DR p Hp). unfold cpl in DR. rewrite (proj2 (U0 p Hp)). split; [lra|].
    destruct (proj1 (wf_in0 _ _ _ (w_st _ _ _ _ W) (zz l0 p)) (zn_In 0%Z l0 p Hp)) as (_ & A). unfold QPBX5.sv. rewrite A. reflexivity.
  - specialize (DM q Hq). unfold cpl in DM. destruct (U1 q Hq) as (U2 & U3). rewrite U3. split; [lra|].
    specialize (DX q Hq). unfold fixed_shift in DX.
    destruct (proj1 (wf_in1 _ _ _ (w_st _ _ _ _ W) (zz l1 q)) (zn_In 0%Z l1 q Hq)) as (_ & A). change (is_active (sv s (zz l1 q)) = true) in A.
    rewrite U2, DX. destruct (SE _ Hi) as [X|[X|X]]; rewrite X in A |- *; [discriminate A|reflexivity|reflexivity].
Qed.
End C34.

(** options that went through setOptions satisfy the guard *)
Theorem C34_guard eps zero infty (o : options (RNumT eps zero infty)) s l0 : 0 < eps ->
  refines_soundly eps zero infty (qb_setOptions o s) l0 /\ (0 <= o_numRefinementSteps (q_opts (qb_setOptions o s)))%Z.
Proof.
  intros He. unfold qb_setOptions, ensureConsistency. rewrite (surjective_pairing (ensureConsistency_run o)).
  assert (A : 0 < o_epsIterRef (snd (ensureConsistency_run o))).
  { rewrite f_eref. cbv zeta. rnum. destruct (Rleb_spec (o_epsIterRef o) 0); [destruct (Rltb_spec eps 0)|destruct (Rltb_spec (o_epsIterRef o) 0)]; lra. }
  assert (B : (0 <= o_numRefinementSteps (snd (ensureConsistency_run o)))%Z).
  { rewrite f_nref. destruct (Z.ltb_spec (o_numRefinementSteps o) 0); lia. }
  split; [intros _; right; left|]; destruct (fst _); cbn; assumption.
Qed.

(** ** Without the guard: a zero Hessian, regularised, whose iterative refinement never stops early
    The residual of the refinement loop is never computed for such a Hessian, so
    with epsIterRef = 0 every refinement round adds the direction once more:
    min 1/2 x^2 (regVal = 1), x free, dg = 1.  The direction must be -1, and is -2. *)
Definition ce_zero_st : subjectTo := match st_setup KBounds (st_set_type (st_new 1) [ST_BOUNDED]) 0 ST_INACTIVE with Ok (_, b) => b | _ => st_empty end.
Definition ce_zero : qpb QNum :=
  mkQ (N := QNum) None false [0%Q] [(-1)%Q] [1%Q] ce_zero_st [1%Q] true [0%Q] [0%Q]
    0%Q QPS_PERFORMINGHOMOTOPY false false HST_ZERO 1%Q 0 [0%Q] 0%Q 0%Q 0 (set_o_epsIterRef (N := QNum) 0%Q optDefault) (fl_new 1 0) 0 0.
Lemma ce_zero_wf : qwf 1 ce_zero [0%Z] [].
Proof.
  constructor; try reflexivity; [|intros i Hi; assert (i = 0%Z) as -> by lia; vm_compute; auto|apply init_holds|discriminate].
  destruct (init_wf 1 st_empty ltac:(lia)) as (W & _ & _).
  assert (W0 : st_wf (st_set_type (st_new 1) [ST_BOUNDED]) [] []) by (destruct W; constructor; auto).
  destruct (setup_ok KBounds _ [] [] 0 ST_INACTIVE W0) as (s1 & E1 & W1 & _); try (vm_compute; congruence); [vm_compute; intuition congruence|auto|].
  replace (q_bounds ce_zero) with s1; [exact W1|]. cbn [q_bounds ce_zero]. unfold ce_zero_st. now rewrite E1.
Qed.
Definition ce_zero_run :=
  determineStepDirection (N := QNum) (mkD (N := QNum) [1%Q] [0%Q] [0%Q] [0%Q] [0%Q] [0%Q]) true ce_zero.
Theorem C34_unguarded_refuted : exists d' s', ce_zero_run = Ok (SUCCESSFUL_RETURN, d', s') /\
  dl_xFR d' = [(-2)%Q] /\ usingReg ce_zero = true /\ zn 0%Q (q_R ce_zero) 0 = 1%Q.
Proof.
  assert (T : match ce_zero_run with
    | Ok (SUCCESSFUL_RETURN, d', s') => dl_xFR d' = [(-2)%Q] /\ usingReg ce_zero = true /\ zn 0%Q (q_R ce_zero) 0 = 1%Q
    | _ => False end) by (vm_compute; auto).
  destruct ce_zero_run as [((r & d') & s')| |]; try contradiction. destruct r; try contradiction. eauto.
Qed.

(** ** Example *)
Example C34_ex : let d := mkD (N := ex_N) [1; 0] [0; 1] [0; 1] [0; 0] [0; 0] [0; 0] in
  qwf 2 ex_s [0%Z] [1%Z] /\ hess (1/1000) (1/1000000) 1000 2 ex_s ex_Hm /\ exact_factor (1/1000) (1/1000000) 1000 2 ex_s ex_Hm /\ dwf 2 d /\
  (forall i, (0 <= i < 2)%Z -> settled (sv (1/1000) (1/1000000) 1000 ex_s i)) /\ (0 <= o_numRefinementSteps (q_opts ex_s))%Z /\
  refines_soundly (1/1000) (1/1000000) 1000 ex_s [0%Z].
Proof.
  cbv zeta. split; [exact ex_s_wf|]. split; [exact ex_hess|]. split; [apply updatable_exact; exact ex_updatable|].
  split; [constructor; reflexivity|]. split.
  { intros i Hi. destruct (two i Hi) as [-> | ->]; vm_compute; auto. }
  split; [vm_compute; congruence|]. intros E. discriminate E.
Qed.

Print Assumptions C34_step_direction.
Print Assumptions C34_guard.
Print Assumptions C34_unguarded_refuted.
