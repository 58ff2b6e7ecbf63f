(** C47, C48: the TQ factorisation and the projected Cholesky factor under every
    sequence of additions and removals of constraints and bounds. *)
From Verif Require Import QPBX5 QPBX7 QPX18 QPX19 QPX20 QPX21.
From Verif Require Import Base Types Num Options Indexlist IndexlistProofs Loops RSum LinSpec SafeLib SubjectTo SubjectToProofs SubjectToProofs2
  Flipper PropFlipper Matrices MatLib MatSafe CsLib PropDense PropSparse PropSparse2 LinAlg PropLinAlg QProblemB QPBSafe QPBSafe2 QPBX1 QPBX2 QPBX3 QPBX4 QProblem QProblem2
  QPX1 QPX2 QPX3 QPX4 QPX5 QPX6 QPX7 QPX8 QPX9 QPX10 QPX11 QPX12 QPX13 QPX14 QPX15 QPX16 QPX17 QPBSafe3 QPBSafe6 QProblem3 PropAux.
Local Open Scope R_scope.

Lemma setupQPdata_arr {N : Num} n (s : qpb N) (a g : list N) lb ub : nV s = n -> (0 <= n)%Z -> zlen (q_g s) = n -> zlen (q_lb s) = n -> zlen (q_ub s) = n ->
  zlen g = n -> olen n lb -> olen n ub ->
  setupQPdata (HArr (Some a)) (Some g) lb ub s = Ok (SUCCESSFUL_RETURN,
    set_q_ub (taken n ub nINFTY) (set_q_lb (taken n lb (nopp nINFTY)) (set_q_g (taken n (Some g) n0) (set_q_H (Some (SDense (mkDense n n n a))) (set_q_freeH true s))))).
Proof.
  intros V Hn G L U Hg Hl Hu. unfold setupQPdata. cbn [qb_setH]. change (nV (set_q_H (Some (SDense {| d_nr := nV s; d_nc := nV s; d_ld := nV s; d_val := a |})) (set_q_freeH true s))) with (nV s).
  rewrite V. rewrite (setVec_ok n _ (Some g)) by (auto; cbn; lia). cbn [bind]. rewrite (setVec_ok n _ lb) by (auto; cbn; lia). cbn [bind]. rewrite (setVec_ok n _ ub) by (auto; cbn; lia). reflexivity.
Qed.

Section TQ.
Variables eps zero infty : R.
Notation N := (RNumT eps zero infty).
Notation arr := (list R).
Notation z := (zn 0).

(** ** What is claimed, in terms of the stored arrays *)
(** free variables and active constraints, by position *)
Definition fr (s : qp N) (i : Z) : Z := zn 0%Z (p_FR s) i.
Definition ac (s : qp N) (i : Z) : Z := zn 0%Z (p_AC s) i.
(** Q is stored by columns over all nV variables, T by rows *)
Definition Qe (s : qp N) (i p : Z) : R := z (p_Q s) (fr s i + pV s * p).
Definition Te (s : qp N) (i p : Z) : R := z (p_T s) (i * p_sizeT s + (p_sizeT s - pAC s + p)).
Definition Re (s : qp N) (i p : Z) : R := if (i <=? p)%Z then z (q_R (p_b s)) (i + pV s * p) else 0.
(** v (by position) is orthogonal to the active constraints *)
Definition null_vec (Am : Z -> Z -> R) (s : qp N) (v : Z -> R) : Prop :=
  forall i, (0 <= i < pAC s)%Z -> rsum 0 (pFR s) (fun j => Am (ac s i) (fr s j) * v j) = 0.

Record TQ_exact (Am : Z -> Z -> R) (s : qp N) : Prop := {
  tq_dim : (0 <= pZ s)%Z;
  tq_cols : forall p q, (0 <= p < pFR s)%Z -> (0 <= q < pFR s)%Z -> rsum 0 (pFR s) (fun i => Qe s i p * Qe s i q) = if (p =? q)%Z then 1 else 0;
  tq_rows : forall i j, (0 <= i < pFR s)%Z -> (0 <= j < pFR s)%Z -> rsum 0 (pFR s) (fun p => Qe s i p * Qe s j p) = if (i =? j)%Z then 1 else 0;
  tq_zero : forall i p, (0 <= i < pAC s)%Z -> (0 <= p < pZ s)%Z -> rsum 0 (pFR s) (fun j => Am (ac s i) (fr s j) * Qe s j p) = 0;
  tq_T : forall i p, (0 <= i < pAC s)%Z -> (0 <= p < pAC s)%Z ->
    rsum 0 (pFR s) (fun j => Am (ac s i) (fr s j) * Qe s j (pZ s + p)) = if (i + p <? pAC s - 1)%Z then 0 else Te s i p;
  tq_diag : forall i, (0 <= i < pAC s)%Z -> Te s i (pAC s - 1 - i) <> 0;
  tq_null : forall v, null_vec Am s v <-> exists c, forall j, (0 <= j < pFR s)%Z -> v j = rsum 0 (pZ s) (fun p => c p * Qe s j p)
}.

(** R'R = Z'HZ; R is only kept up to date for a Hessian that is neither zero nor identity *)
Definition Chol_exact (Hm : Z -> Z -> R) (s : qp N) : Prop := plainH (p_b s) = true ->
  (forall p q, (0 <= p < pZ s)%Z -> (0 <= q < pZ s)%Z ->
    rsum 0 (pZ s) (fun k => Re s k p * Re s k q) = rsum 0 (pFR s) (fun i => rsum 0 (pFR s) (fun j => Qe s i p * Hm (fr s i) (fr s j) * Qe s j q))) /\
  forall p, (0 <= p < pZ s)%Z -> Re s p p <> 0.

(** the row a (over all variables) is independent of the working set *)
Definition indep (Am : Z -> Z -> R) (s : qp N) (a : Z -> R) : Prop := exists v, null_vec Am s v /\ rsum 0 (pFR s) (fun j => a (fr s j) * v j) <> 0.

(** ** Operations and their sequences *)
Variable junk : Z -> arr.
Inductive op :=
| OAddC (number : Z) (v : SubjectToStatus) (upd li : bool)
| OAddB (number : Z) (v : SubjectToStatus) (upd li : bool)
| ORemC (number : Z) (upd flip : bool)
| ORemB (number : Z) (upd flip : bool)
| OChol.

Definition run (o : op) (s : qp N) : res (returnValue * qp N) :=
  match o with
  | OAddC i v upd li => p_addConstraint (N := N) junk i v upd li s
  | OAddB i v upd li => p_addBound (N := N) junk i v upd li s
  | ORemC i upd flip => p_removeConstraint (N := N) junk i upd flip false s
  | ORemB i upd flip => p_removeBound (N := N) junk i upd flip false s
  | OChol => computeProjectedCholesky (N := N) s
  end.

(** tolerances under which a dependence is resolved *)
Definition li_options (s : qp N) : Prop :=
  o_enableDropInfeasibles (p_opts s) = false /\ 0 <= o_epsLITests (p_opts s) /\ 0 < o_epsDen (p_opts s) /\ (o_enableFullLITests (p_opts s) = true -> (0 <= o_numRefinementSteps (p_opts s))%Z).

(** the calls considered: [rv] says that R is up to date *)
Definition legal (Am : Z -> Z -> R) (rv : bool) (s : qp N) (o : op) : Prop :=
  match o with
  | OAddC i v upd li => (0 <= i < pC s)%Z /\ is_active v = true /\ (upd = true -> rv = true) /\
      if upd && li then li_options s else st_getStatus (p_cons s) i = Ok ST_INACTIVE -> indep Am s (Am i)
  | OAddB i v upd li => (0 <= i < pV s)%Z /\ is_active v = true /\ (upd = true -> rv = true) /\
      if upd && li then li_options s else st_getStatus (p_bounds s) i = Ok ST_INACTIVE -> indep Am s (fun u => if (u =? i)%Z then 1 else 0)
  | ORemC i upd flip => In i (firstn (Z.to_nat (pAC s)) (p_AC s)) /\ (upd = true -> rv = true /\ 0 <= o_epsFlipping (p_opts s))
  | ORemB i upd flip => In i (firstn (Z.to_nat (pFX s)) (p_FX s)) /\ (upd = true -> rv = true /\ 0 <= o_epsFlipping (p_opts s))
  | OChol => pFX s = 0%Z -> pAC s = 0%Z -> forall i p, (0 <= i < pFR s)%Z -> (0 <= p < pFR s)%Z -> Qe s i p = if (i =? p)%Z then 1 else 0
  end.
Definition next (o : op) (rv : bool) : bool :=
  match o with OAddC _ _ upd _ | OAddB _ _ upd _ | ORemC _ upd _ | ORemB _ upd _ => rv && upd | OChol => true end.
(** additions may fail, e.g. because a dependence cannot be resolved *)
Definition goes_on (o : op) (r : returnValue) : Prop := match o with OAddC _ _ _ _ | OAddB _ _ _ _ => True | _ => r = SUCCESSFUL_RETURN end.

Inductive exec (P : qp N -> op -> Prop) (Am : Z -> Z -> R) : bool -> qp N -> list op -> bool -> qp N -> Prop :=
| exec_nil rv s : exec P Am rv s [] rv s
| exec_cons rv s o r s1 os rv' s' : legal Am rv s o -> P s o -> run o s = Ok (r, s1) -> goes_on o r -> exec P Am (next o rv) s1 os rv' s' -> exec P Am rv s (o :: os) rv' s'.

(** without the expensive test, which trusts R *)
Definition cheap (s : qp N) (o : op) : Prop :=
  match o with OAddC _ _ upd li | OAddB _ _ upd li => upd && li = true -> o_enableFullLITests (p_opts s) = false | _ => True end.
(** what the exactness of R takes in addition *)
Definition sound (Hm : Z -> Z -> R) (s : qp N) (o : op) : Prop :=
  match o with
  | OAddC _ _ upd li | OAddB _ _ upd li => upd && li = true -> posdef (pV s) Hm \/ o_epsLITests (p_opts s) = 0
  | ORemC _ upd flip | ORemB _ upd flip => upd = true -> posdef (pV s) Hm \/ flip = true
  | OChol => True
  end.

(** a problem before its factorisations are set up: memory of the right size, no
    constraint active, A and H matrices with the entries Am and Hm *)
Definition ready (n m : Z) (Am Hm : Z -> Z -> R) (s : qp N) : Prop := exists l0 l1 k0,
  pwf eps zero infty n m Am s l0 l1 k0 [] /\ pfl eps zero infty n m s /\ zlen (q_y (p_b s)) = (n + m)%Z /\
  (exists M, p_A s = Some M /\ amat_full eps zero infty m n M Am) /\ hdata eps zero infty n s Hm /\ cwf eps zero infty n m (scr_of (N := N) s).

(** ** Proofs *)
Hypothesis zero_0 : zero = 0.
Hypothesis eps_pos : 0 < eps.
Hypothesis J : junk_ok (N := N) junk.
Notation pinv := (pinv eps zero infty).
Notation pframe := (pframe eps zero infty).
Notation Rvalid := (Rvalid eps zero infty).
Notation Rexact := (Rexact eps zero infty).

Section Bridge.
Variables (n m : Z) (Am : Z -> Z -> R) (s : qp N) (l0 l1 k0 k1 : list Z).
Hypothesis I : pinv n m Am s l0 l1 k0 k1.

Lemma br_dims : pV s = n /\ pC s = m /\ pFR s = zlen l0 /\ pAC s = zlen k1 /\ pFX s = zlen l1 /\ NoDup l0.
Proof using I.
  destruct I as [W _ _ _ _]. destruct W as [En Em Wb Wc _ _ _ _ _]. split; [exact En|]. split; [exact Em|]. split; [exact (rep_len _ _ (wf_ina _ _ _ Wb))|]. split; [exact (rep_len _ _ (wf_act _ _ _ Wc))|].
  split; [exact (rep_len _ _ (wf_act _ _ _ Wb))|exact (rep_NoDup _ _ (wf_ina _ _ _ Wb))].
Qed.
Lemma rd_zn (l : list Z) i v : (0 <= i)%Z -> rd l i = Ok v -> zn 0%Z l i = v.
Proof using.
  intros Hi E. unfold rd in E. destruct (0 <=? i)%Z; [|discriminate]. unfold zn. destruct (nth_error l (Z.to_nat i)) eqn:X; [|discriminate]. injection E as <-. now apply nth_error_nth.
Qed.
Lemma br_fr i : (0 <= i < zlen l0)%Z -> fr s i = zz l0 i.
Proof using I. intros Hi. apply rd_zn; [lia|]. apply (rep_rd _ _ _ (pw_b _ _ _ _ _ _ _ _ _ _ _ (pi_w _ _ _ _ _ _ _ _ _ _ _ I)) i Hi). Qed.
Lemma br_ac i : (0 <= i < zlen k1)%Z -> ac s i = zz k1 i.
Proof using I. intros Hi. apply rd_zn; [lia|]. apply (rep_rd1 _ _ _ (pw_c _ _ _ _ _ _ _ _ _ _ _ (pi_w _ _ _ _ _ _ _ _ _ _ _ I)) i Hi). Qed.
Lemma br_sum (f : Z -> R) : rsum 0 (pFR s) (fun j => f (fr s j)) = lsum l0 f.
Proof using I.
  destruct br_dims as (_ & _ & -> & _). rewrite <- (rsum_list l0). apply rsum_ext. intros j Hj. now rewrite br_fr.
Qed.
Lemma br_sum2 (f : Z -> Z -> R) : rsum 0 (pFR s) (fun j => f j (fr s j)) = rsum 0 (zlen l0) (fun j => f j (zz l0 j)).
Proof using I. destruct br_dims as (_ & _ & -> & _). apply rsum_ext. intros j Hj. now rewrite br_fr. Qed.

Definition at_pos (v : Z -> R) (u : Z) : R := v (spec_pos l0 u).
Lemma at_pos_zz v j : (0 <= j < zlen l0)%Z -> at_pos v (zz l0 j) = v j.
Proof using I. intros Hj. unfold at_pos. rewrite spec_pos_unique; auto. apply br_dims. Qed.
Lemma br_dot a v : rsum 0 (pFR s) (fun j => a (fr s j) * v j) = lsum l0 (fun u => a u * at_pos v u).
Proof using I.
  rewrite (br_sum2 (fun j u => a u * v j)), <- (rsum_list l0). apply rsum_ext. intros j Hj. change (zn 0%Z l0 j) with (zz l0 j). now rewrite at_pos_zz.
Qed.
Lemma br_null v : null_vec Am s v <-> inkernel l0 k1 Am (at_pos v).
Proof using I.
  destruct br_dims as (_ & _ & _ & EC & _). unfold null_vec, inkernel. rewrite EC. split.
  - intros H c Hc. destruct (In_zn 0%Z k1 c Hc) as (i & Hi & <-). specialize (H i Hi). rewrite br_ac in H by exact Hi. rewrite br_dot in H. exact H.
  - intros H i Hi. rewrite br_dot, br_ac by exact Hi. apply H. apply zn_In. lia.
Qed.
Lemma br_Qe i p : (0 <= i < zlen l0)%Z -> Qe s i p = ce n (p_Q s) (zz l0 i) p.
Proof using I. intros Hi. unfold Qe, ce. rewrite br_fr by exact Hi. now rewrite (proj1 br_dims). Qed.

Lemma pinv_exact : TQ_exact Am s.
Proof using I.
  destruct br_dims as (En & Em & EF & EC & EX & ND). pose proof (pi_tq _ _ _ _ _ _ _ _ _ _ _ I) as TQ. pose proof TQ as (LE & (O1 & O2) & AT & DG).
  assert (EZ : pZ s = (zlen l0 - zlen k1)%Z) by (unfold pZ; lia). pose proof (zlen_nonneg k1).
  assert (SA : forall c p, rsum 0 (pFR s) (fun j => Am c (fr s j) * Qe s j p) = comb l0 (Am c) (ce n (p_Q s)) p).
  { intros c p. unfold comb. rewrite <- br_sum. rewrite EF. apply rsum_ext. intros j Hj. rewrite br_Qe by exact Hj. now rewrite br_fr. }
  constructor.
  - lia.
  - intros p q Hp Hq. rewrite EF in *. etransitivity; [|apply (O1 p q Hp Hq)]. rewrite <- (rsum_list l0). apply rsum_ext. intros i Hi. now rewrite !br_Qe.
  - intros i j Hi Hj. rewrite EF in *. etransitivity; [apply rsum_ext; intros p Hp; rewrite !br_Qe by assumption; reflexivity|]. rewrite O2 by (apply zn_In; lia).
    unfold delta. destruct (Z.eqb_spec (zz l0 i) (zz l0 j)) as [E|E]; destruct (Z.eqb_spec i j) as [E'|E']; try reflexivity.
    + exfalso. apply E'. rewrite <- (spec_pos_unique l0 i ND Hi), <- (spec_pos_unique l0 j ND Hj). now rewrite E.
    + subst. contradiction.
  - intros i p Hi Hp. rewrite EC in Hi. rewrite SA, br_ac by exact Hi. change (zz k1 i) with (zn 0%Z k1 i). rewrite AT by lia. destruct (Z.leb_spec (zlen l0 - 1) (i + p)); [lia|reflexivity].
  - intros i p Hi Hp. rewrite EC in *. rewrite SA, br_ac by exact Hi. change (zz k1 i) with (zn 0%Z k1 i). rewrite AT by lia. unfold Te, te. rewrite EC, EZ.
    destruct (Z.leb_spec (zlen l0 - 1) (i + (zlen l0 - zlen k1 + p))), (Z.ltb_spec (i + p) (zlen k1 - 1)); try lia; [|reflexivity]. f_equal. lia.
  - intros i Hi. rewrite EC in *. unfold Te. rewrite EC. replace (p_sizeT s - zlen k1 + (zlen k1 - 1 - i))%Z with (p_sizeT s - 1 - i)%Z by lia. apply DG. exact Hi.
  - intros v. rewrite br_null. rewrite (kernel_span n (p_sizeT s) l0 k1 Am (p_Q s) (p_T s) ND TQ). rewrite EF, EZ. split; intros (c & E); exists c.
    + intros j Hj. rewrite <- at_pos_zz by exact Hj. rewrite E by (apply zn_In; lia). apply rsum_ext. intros p Hp. now rewrite br_Qe.
    + intros u Hu. destruct (In_zn 0%Z l0 u Hu) as (j & Hj & <-). change (zn 0%Z l0 j) with (zz l0 j). rewrite at_pos_zz by exact Hj. rewrite E by exact Hj. apply rsum_ext. intros p Hp. now rewrite br_Qe.
Qed.

Lemma rinv_exact Hm : Rexact n s (zlen l0 - zlen k1) l0 Hm -> Chol_exact Hm s.
Proof using I.
  intros RX P. destruct (RX P) as ((G & D) & _). destruct br_dims as (En & Em & EF & EC & EX & ND). assert (EZ : pZ s = (zlen l0 - zlen k1)%Z) by (unfold pZ; lia).
  assert (ER : forall i p, Re s i p = triu (q_R (p_b s)) n i p) by (intros; unfold Re, triu; now rewrite En).
  rewrite EZ. split.
  - intros p q Hp Hq. rewrite (rsum_ext _ _ _ (fun k => triu (q_R (p_b s)) n k p * triu (q_R (p_b s)) n k q)) by (intros; now rewrite !ER).
    etransitivity; [apply (G p q Hp Hq)|]. unfold zhz. rewrite EF, <- (rsum_list l0). apply rsum_ext. intros i Hi. rewrite <- (rsum_list l0). apply rsum_ext. intros j Hj.
    now rewrite !br_Qe, !br_fr.
  - intros p Hp. rewrite ER, triu_diag. now apply D.
Qed.

Lemma br_indep a : indep Am s a -> exists p, (0 <= p < zlen l0 - zlen k1)%Z /\ comb l0 a (ce n (p_Q s)) p <> 0.
Proof using I.
  intros (v & NV & Nz). apply (indep_iff n (p_sizeT s) l0 k1 Am (p_Q s) (p_T s)); [apply br_dims|apply I|]. exists (at_pos v). split; [now apply br_null|]. now rewrite <- br_dot.
Qed.
Lemma br_firstn (b : subjectTo) a0 a1 x : st_wf b a0 a1 -> In x (firstn (Z.to_nat (st_nAct b)) (il_number (st_act b))) <-> In x a1.
Proof using.
  intros W. pose proof (wf_act _ _ _ W) as R. assert (E : firstn (Z.to_nat (st_nAct b)) (il_number (st_act b)) = a1); [|now rewrite E].
  assert (EL : st_nAct b = zlen a1) by exact (rep_len _ _ R). rewrite EL. unfold zlen. rewrite Nat2Z.id. symmetry.
  assert (X : forall i, (0 <= i < zlen a1)%Z -> rd (il_number (st_act b)) i = Ok (zn 0%Z a1 i)) by (intros i Hi; now apply rd_rep).
  assert (LL : (length a1 <= length (il_number (st_act b)))%nat).
  { destruct (Nat.le_gt_cases (length a1) (length (il_number (st_act b)))) as [|G]; [assumption|]. exfalso.
    specialize (X (zlen (il_number (st_act b))) ltac:(unfold zlen; lia)). unfold rd in X. destruct (0 <=? _)%Z; [|discriminate X]. unfold zlen in X. rewrite Nat2Z.id in X. rewrite (proj2 (nth_error_None _ _)) in X by lia. discriminate X. }
  apply (list_ext_zn 0%Z); [unfold zlen; rewrite firstn_length; lia|]. intros i Hi. specialize (X i Hi). apply rd_zn in X; [|lia]. rewrite <- X. unfold zlen in Hi. unfold zn.
  rewrite <- (firstn_skipn (length a1) (il_number (st_act b))) at 1. rewrite app_nth1; [reflexivity|]. rewrite firstn_length. lia.
Qed.
End Bridge.

(** one operation *)
Section Step.
Variables (n m : Z) (Am Hm : Z -> Z -> R).
Definition hs (s : qp N) : Prop := hdata eps zero infty n s Hm /\ cwf eps zero infty n m (scr_of (N := N) s).
Lemma pframe_hs s s' : pframe s s' -> hs s -> hs s'.
Proof using. intros F (H & C). split; [eapply pframe_hdata; eauto|eapply pframe_cwf; eauto]. Qed.
Definition good (rv : bool) (s : qp N) (l0 l1 k0 k1 : list Z) : Prop :=
  pinv n m Am s l0 l1 k0 k1 /\ hs s /\ (rv = true -> Rvalid n s (zlen l0 - zlen k1)).
Definition after (rv : bool) (s : qp N) (l0 k1 : list Z) (o : op) (s' : qp N) : Prop := exists l0' l1' k0' k1',
  good (next o rv) s' l0' l1' k0' k1' /\
  (next o rv = true -> (rv = true -> Rexact n s (zlen l0 - zlen k1) l0 Hm) -> sound Hm s o -> Rexact n s' (zlen l0' - zlen k1') l0' Hm).

(** what the tests may rely on *)
Definition trusted (rv : bool) (s : qp N) (l0 k1 : list Z) (o : op) : Prop := cheap s o \/ (rv = true -> Rexact n s (zlen l0 - zlen k1) l0 Hm).
Lemma unfold_li s l0 k1 o upd li : li_options s -> cwf eps zero infty n m (scr_of (N := N) s) -> trusted true s l0 k1 o -> (cheap s o = (upd && li = true -> o_enableFullLITests (p_opts s) = false)) -> upd && li = true -> licfg eps zero infty n m Hm l0 k1 s.
Proof using.
  intros (A1 & A2 & A3 & A4) CW T E UL. split; [|auto]. intros F. split; [|auto]. destruct T as [C|R]; [|now apply R]. rewrite E in C. rewrite (C UL) in F. discriminate F.
Qed.

Lemma step_addC rv s l0 l1 k0 k1 i v upd li : good rv s l0 l1 k0 k1 -> trusted rv s l0 k1 (OAddC i v upd li) -> legal Am rv s (OAddC i v upd li) ->
  wp (run (OAddC i v upd li) s) (fun '(_, s') => after rv s l0 k1 (OAddC i v upd li) s').
Proof using zero_0 eps_pos J.
  intros (I & (HD & CW) & RV) CH (Hi & Hv & UR & IND). pose proof (pi_w _ _ _ _ _ _ _ _ _ _ _ I) as W. pose proof (pw_c _ _ _ _ _ _ _ _ _ _ _ W) as Wc.
  assert (Same : after rv s l0 k1 (OAddC i v upd li) s).
  { exists l0, l1, k0, k1. cbn [next]. split; [split; [exact I|split; [exact (conj HD CW)|]]|]; intros E; apply andb_prop in E as [E _]; [auto|]. intros X _. auto. }
  cbn [run]. destruct (sts_eq_dec (zs (st_status (p_cons s)) i) ST_INACTIVE) as [HI|NI].
  2:{ unfold p_addConstraint, addConstraint_check. rewrite (getStatus_ok _ _ _ _ Wc Hi). cbn [bind].
      assert (E : is_sts (zs (st_status (p_cons s)) i) ST_INACTIVE = false) by (unfold is_sts; destruct (sts_eq_dec _ _); [contradiction|reflexivity]). rewrite E. exact Same. }
  assert (Hin : In i k0) by (apply (wf_in0 _ _ _ Wc); auto). destruct (upd && li) eqn:UL.
  - pose proof UL as UL'. apply andb_prop in UL as [-> ->]. specialize (UR eq_refl). subst rv. specialize (RV eq_refl).
    eapply wp_mono; [apply (addConstraint_LI eps zero infty zero_0 junk J n m Am Hm s l0 l1 k0 k1 i v I HD eps_pos RV (unfold_li s l0 k1 _ true true IND CW CH eq_refl UL') Hin Hv)|].
    intros [r s'] (l0' & l1' & k0' & k1' & I' & FR & RV' & RX & _). exists l0', l1', k0', k1'. cbn [next andb]. split; [split; [exact I'|split; [apply (pframe_hs s); [exact FR|exact (conj HD CW)]|auto]]|].
    intros _ X SD. apply RX; auto. assert (En := proj1 (br_dims _ _ _ _ _ _ _ _ I)). rewrite <- En. now apply SD.
  - unfold p_addConstraint, addConstraint_check. rewrite (getStatus_ok _ _ _ _ Wc Hi). cbn [bind]. rewrite HI. change (negb (is_sts ST_INACTIVE ST_INACTIVE)) with false. cbv iota.
    destruct (getNumberOfType_ok (p_cons s) k0 k1 ST_UNBOUNDED Wc) as (nuc & ->). cbn [bind].
    destruct (_ =? nuc)%Z; [exact Same|]. destruct (p_noUpdate s) eqn:NU; cbn [bind]; [exact Same|]. rewrite UL. cbn [bind afterLI].
    assert (IN2 := br_indep _ _ _ _ _ _ _ _ I (Am i) (IND ltac:(rewrite (getStatus_ok _ _ _ _ Wc Hi); now rewrite HI))).
    destruct (addC_step eps zero infty zero_0 junk J n m Am s l0 l1 k0 k1 i v upd I Hin Hv IN2 (fun U => RV (UR U))) as (s' & E & I' & FR & V' & X'). rewrite E. cbn [wp].
    assert (EL : zlen (k1 ++ [i]) = (zlen k1 + 1)%Z) by (rewrite zlen_app; reflexivity). assert (EQ : (zlen l0 - zlen k1 - 1 = zlen l0 - zlen (k1 ++ [i]))%Z) by lia. rewrite EQ in V', X'.
    exists l0, l1, (spec_remove k0 i), (k1 ++ [i]). cbn [next]. split; [split; [exact I'|split; [apply (pframe_hs s); [exact FR|exact (conj HD CW)]|]]|]; intros Er; apply andb_prop in Er as [-> ->]; [auto|].
    intros X _. apply X'; auto.
Qed.

Lemma step_addB rv s l0 l1 k0 k1 i v upd li : good rv s l0 l1 k0 k1 -> trusted rv s l0 k1 (OAddB i v upd li) -> legal Am rv s (OAddB i v upd li) ->
  wp (run (OAddB i v upd li) s) (fun '(_, s') => after rv s l0 k1 (OAddB i v upd li) s').
Proof using zero_0 eps_pos J.
  intros (I & (HD & CW) & RV) CH (Hi & Hv & UR & IND). pose proof (pi_w _ _ _ _ _ _ _ _ _ _ _ I) as W. pose proof (pw_b _ _ _ _ _ _ _ _ _ _ _ W) as Wb.
  assert (Same : after rv s l0 k1 (OAddB i v upd li) s).
  { exists l0, l1, k0, k1. cbn [next]. split; [split; [exact I|split; [exact (conj HD CW)|]]|]; intros E; apply andb_prop in E as [E _]; [auto|]. intros X _. auto. }
  cbn [run]. destruct (sts_eq_dec (zs (st_status (p_bounds s)) i) ST_INACTIVE) as [HI|NI].
  2:{ unfold p_addBound, addBound_check. rewrite (getStatus_ok _ _ _ _ Wb Hi). cbn [bind].
      assert (E : is_sts (zs (st_status (p_bounds s)) i) ST_INACTIVE = false) by (unfold is_sts; destruct (sts_eq_dec _ _); [contradiction|reflexivity]). rewrite E. exact Same. }
  assert (Hin : In i l0) by (apply (wf_in0 _ _ _ Wb); auto). destruct (upd && li) eqn:UL.
  - pose proof UL as UL'. apply andb_prop in UL as [-> ->]. specialize (UR eq_refl). subst rv. specialize (RV eq_refl).
    eapply wp_mono; [apply (addBound_LI eps zero infty zero_0 junk J n m Am Hm s l0 l1 k0 k1 i v I HD eps_pos RV (unfold_li s l0 k1 _ true true IND CW CH eq_refl UL') Hin Hv)|].
    intros [r s'] (l0' & l1' & k0' & k1' & I' & FR & RV' & RX & _). exists l0', l1', k0', k1'. cbn [next andb]. split; [split; [exact I'|split; [apply (pframe_hs s); [exact FR|exact (conj HD CW)]|auto]]|].
    intros _ X SD. apply RX; auto. assert (En := proj1 (br_dims _ _ _ _ _ _ _ _ I)). rewrite <- En. now apply SD.
  - unfold p_addBound, addBound_check. rewrite (getStatus_ok _ _ _ _ Wb Hi). cbn [bind]. rewrite HI. change (negb (is_sts ST_INACTIVE ST_INACTIVE)) with false. cbv iota.
    destruct (getNumberOfType_ok (p_bounds s) l0 l1 ST_UNBOUNDED Wb) as (nuc & ->). cbn [bind].
    destruct (_ =? nuc)%Z; [exact Same|]. destruct (p_noUpdate s) eqn:NU; cbn [bind]; [exact Same|]. rewrite UL. cbn [bind afterLI].
    assert (ND : NoDup l0) by exact (rep_NoDup _ _ (wf_ina _ _ _ Wb)).
    assert (IN2 : exists p, (0 <= p < zlen l0 - zlen k1)%Z /\ ce n (p_Q s) i p <> 0).
    { destruct (br_indep _ _ _ _ _ _ _ _ I _ (IND ltac:(rewrite (getStatus_ok _ _ _ _ Wb Hi); now rewrite HI))) as (p & Hp & Np). exists p. split; [exact Hp|].
      intros Z0. apply Np. etransitivity; [exact (comb_delta l0 i (ce n (p_Q s)) p ND Hin)|exact Z0]. }
    destruct (addB_step eps zero infty zero_0 junk J n m Am s l0 l1 k0 k1 i v upd I Hin Hv IN2 (fun U => RV (UR U))) as (s' & lp & E & PM & I' & FR & V' & X'). rewrite E. cbn [wp].
    assert (EL : zlen lp = (zlen l0 - 1)%Z) by (assert (X := perm_zlen _ _ PM); rewrite zlen_app in X; change (zlen [i]) with 1%Z in X; lia).
    assert (EQ : (zlen l0 - zlen k1 - 1 = zlen lp - zlen k1)%Z) by lia. rewrite EQ in V', X'.
    exists lp, (l1 ++ [i]), k0, k1. cbn [next]. split; [split; [exact I'|split; [apply (pframe_hs s); [exact FR|exact (conj HD CW)]|]]|]; intros Er; apply andb_prop in Er as [-> ->]; [auto|].
    intros X _. apply X'; auto.
Qed.

Lemma step_remC rv s l0 l1 k0 k1 i upd flip : good rv s l0 l1 k0 k1 -> legal Am rv s (ORemC i upd flip) ->
  wp (run (ORemC i upd flip) s) (fun '(r, s') => r = SUCCESSFUL_RETURN -> after rv s l0 k1 (ORemC i upd flip) s').
Proof using zero_0 eps_pos J.
  intros (I & (HD & CW) & RV) (Hin & UR). pose proof I as [W F Ly FA TQ]. pose proof (pw_b _ _ _ _ _ _ _ _ _ _ _ W) as Wb. pose proof (pw_c _ _ _ _ _ _ _ _ _ _ _ W) as Wc.
  apply (br_firstn _ _ _ i Wc) in Hin. destruct (br_dims _ _ _ _ _ _ _ _ I) as (En & Em & EF & EC & EX & ND).
  cbn [run]. unfold p_removeConstraint, removeConstraint_check. destruct (p_noUpdate s) eqn:NU; [cbn; discriminate|].
  assert (P0 : (0 <= spec_pos k1 i)%Z) by now apply spec_pos_nonneg_In.
  rewrite (getIndex_spec _ k1) by (solve [exact (wf_act _ _ _ Wc)|exists i; split; [exact Hin|lia]]). cbn [bind].
  pose proof Hin as Hin'. apply (wf_in1 _ _ _ Wc) in Hin' as (Hr & HA). rewrite (getStatus_ok _ _ _ _ Wc Hr). cbn [bind].
  assert (NI : is_sts (zs (st_status (p_cons s)) i) ST_INACTIVE = false) by (destruct (zs (st_status (p_cons s)) i); try reflexivity; discriminate HA). rewrite NI.
  pose proof (spec_pos_range k1 i) as SR. rewrite EC. destruct (Z.ltb_spec (spec_pos k1 i) 0); [lia|]. destruct (Z.leb_spec (zlen k1) (spec_pos k1 i)); [lia|]. cbn [orb bind].
  change (negb (SUCCESSFUL_RETURN =r? SUCCESSFUL_RETURN)) with false. cbv iota.
  assert (HU : upd && plainH (p_b s) = true -> symm_on n Hm /\ hmat eps zero infty n s Hm /\ rreg n (zlen l0 - zlen k1) (q_R (p_b s))).
  { intros U. pose proof U as U'. apply andb_prop in U' as [U' _]. apply (hdata_upd eps zero infty n s Hm _ HD (RV (proj1 (UR U'))) upd U). }
  eapply wp_mono; [apply (removeConstraint_update_ok eps zero infty zero_0 junk J n m Am Hm s l0 l1 k0 k1 i upd flip W F Hin TQ HU)|].
  intros [r s'] (T & Q & Ra & f & rho & TQ' & COL & CV & K) Hr0. pose proof (spec_remove_len k1 i Hin) as Ls. destruct TQ as (LE & _).
  destruct K as [(c & _ & ES & SM & ST & W' & F' & R0 & R1 & FL & NF & R2 & R3)|[(U & Fl & Rh & _ & FC & W' & F')|(_ & _ & _ & _ & Bad)]]; [| |rewrite Hr0 in Bad; discriminate Bad].
  - exists l0, l1, (k0 ++ [i]), (spec_remove k1 i). assert (FR : pframe s s') by (rewrite ES; unfold pframe; cbn; repeat (split; [reflexivity|]); now left).
    assert (EQ : (zlen l0 - zlen (spec_remove k1 i) = zlen l0 - zlen k1 + 1)%Z) by lia. rewrite EQ. assert (PH : plainH (p_b s') = plainH (p_b s)) by now apply pframe_plain.
    assert (E2 : q_R (p_b s') = Ra) by (rewrite ES; reflexivity). assert (E3 : p_Q s' = Q) by (rewrite ES; reflexivity).
    split; [split; [|split; [apply (pframe_hs s); [exact FR|exact (conj HD CW)]|]]|].
    + constructor; [exact W'|exact F'|rewrite ES; exact Ly|rewrite ES; exact FA|rewrite ES; exact TQ'].
    + cbn [next]. intros Er. apply andb_prop in Er as [-> ->]. intros P. rewrite PH in P. rewrite E2, EQ. apply R2; auto. intros _. now apply UR.
    + cbn [next sound]. intros Er. apply andb_prop in Er as [-> ->]. intros X SD P. rewrite PH in P. rewrite E2, E3. assert (U : true && plainH (p_b s) = true) by exact P. destruct (X eq_refl P) as (FC & SZ).
      assert (RP : 0 < rho).
      { destruct (SD eq_refl) as [PD| ->].
        - destruct (range_b _ _ _ Wb) as (Rg0 & _). change (st_n (p_bounds s)) with (pV s) in Rg0. rewrite En in Rg0, PD. destruct TQ' as (LE' & OQ & _). pose proof (zlen_nonneg (spec_remove k1 i)).
          apply (curv_pos n l0 Hm Q (zlen l0 - zlen k1) rho PD ND Rg0 OQ); [lia|lia|]. apply CV; auto.
        - destruct (o_enableFlippingBounds (p_opts s) && true) eqn:Fl.
          + specialize (FL U eq_refl). destruct (UR eq_refl) as (_ & PF). lra.
          + destruct (Rlt_le_dec 0 rho) as [|Le]; [assumption|]. destruct (NF U eq_refl Le) as (Bad & _). discriminate Bad. }
      apply R1; auto.
  - apply andb_prop in U as [-> P]. exists l0, l1, k0, k1. destruct FC as (c & f2 & lbA & ubA & axl & axu & ES & SM & ST & EI & EA & _).
    assert (FR : pframe s s') by (rewrite ES; unfold pframe; cbn; repeat (split; [reflexivity|]); right; auto). assert (PH : plainH (p_b s') = plainH (p_b s)) by now apply pframe_plain.
    split; [split; [|split; [apply (pframe_hs s); [exact FR|exact (conj HD CW)]|]]|].
    + constructor; [exact W'|exact F'|rewrite ES; exact Ly|rewrite ES; exact FA|]. rewrite ES. apply I.
    + cbn [next]. intros Er. apply andb_prop in Er as [-> _]. intros _. specialize (RV eq_refl P). rewrite ES. exact RV.
    + cbn [next]. intros Er X _ _. apply andb_prop in Er as [-> _]. specialize (X eq_refl P). rewrite ES. exact X.
Qed.

Lemma step_remB rv s l0 l1 k0 k1 i upd flip : good rv s l0 l1 k0 k1 -> legal Am rv s (ORemB i upd flip) ->
  wp (run (ORemB i upd flip) s) (fun '(r, s') => r = SUCCESSFUL_RETURN -> after rv s l0 k1 (ORemB i upd flip) s').
Proof using zero_0 eps_pos J.
  intros (I & (HD & CW) & RV) (Hin & UR). pose proof I as [W F Ly FA TQ]. pose proof (pw_b _ _ _ _ _ _ _ _ _ _ _ W) as Wb. pose proof (pw_c _ _ _ _ _ _ _ _ _ _ _ W) as Wc.
  apply (br_firstn _ _ _ i Wb) in Hin. destruct (br_dims _ _ _ _ _ _ _ _ I) as (En & Em & EF & EC & EX & ND).
  cbn [run]. unfold p_removeBound, removeBound_check.
  pose proof Hin as Hin'. apply (wf_in1 _ _ _ Wb) in Hin' as (Hr & HA). rewrite (getStatus_ok _ _ _ _ Wb Hr). cbn [bind].
  assert (NI : is_sts (zs (st_status (p_bounds s)) i) ST_INACTIVE = false) by (destruct (zs (st_status (p_bounds s)) i); try reflexivity; discriminate HA). rewrite NI.
  destruct (p_noUpdate s) eqn:NU; [cbn; discriminate|]. cbn [bind].
  change (negb (SUCCESSFUL_RETURN =r? SUCCESSFUL_RETURN)) with false. cbv iota.
  assert (HU : upd && plainH (p_b s) = true -> symm_on n Hm /\ hmat eps zero infty n s Hm /\ rreg n (zlen l0 - zlen k1) (q_R (p_b s))).
  { intros U. pose proof U as U'. apply andb_prop in U' as [U' _]. apply (hdata_upd eps zero infty n s Hm _ HD (RV (proj1 (UR U'))) upd U). }
  eapply wp_mono; [apply (removeBound_update_ok eps zero infty zero_0 junk J n m Am Hm s l0 l1 k0 k1 i upd flip W F Hin TQ HU)|].
  intros [r s'] (T & Q & Ra & f & rho & TQ' & COL & CV & K) Hr0. destruct TQ as (LE & _).
  assert (EL : zlen (l0 ++ [i]) = (zlen l0 + 1)%Z) by (rewrite zlen_app; reflexivity).
  destruct K as [(c & _ & ES & SM & ST & W' & F' & R0 & R1 & FL & NF & R2 & R3)|[(U & Fl & Rh & _ & FC & W' & F')|(_ & _ & _ & _ & Bad)]]; [| |rewrite Hr0 in Bad; discriminate Bad].
  - exists (l0 ++ [i]), (spec_remove l1 i), k0, k1. assert (FR : pframe s s') by (rewrite ES; unfold pframe; cbn; repeat (split; [reflexivity|]); now left).
    assert (EQ : (zlen (l0 ++ [i]) - zlen k1 = zlen l0 - zlen k1 + 1)%Z) by lia. rewrite EQ. assert (PH : plainH (p_b s') = plainH (p_b s)) by now apply pframe_plain.
    assert (E2 : q_R (p_b s') = Ra) by (rewrite ES; reflexivity). assert (E3 : p_Q s' = Q) by (rewrite ES; reflexivity).
    split; [split; [|split; [apply (pframe_hs s); [exact FR|exact (conj HD CW)]|]]|].
    + constructor; [exact W'|exact F'|rewrite ES; exact Ly|rewrite ES; exact FA|rewrite ES; exact TQ'].
    + cbn [next]. intros Er. apply andb_prop in Er as [-> ->]. intros P. rewrite PH in P. rewrite E2, EQ. apply R2; auto. intros _. now apply UR.
    + cbn [next sound]. intros Er. apply andb_prop in Er as [-> ->]. intros X SD P. rewrite PH in P. rewrite E2, E3. assert (U : true && plainH (p_b s) = true) by exact P. destruct (X eq_refl P) as (FC & SZ).
      assert (RP : 0 < rho).
      { destruct (SD eq_refl) as [PD| ->].
        - pose proof (pw_b _ _ _ _ _ _ _ _ _ _ _ W') as Wb'. destruct (range_b _ _ _ Wb') as (Rg0 & _). change (st_n (p_bounds s')) with (pV s') in Rg0. rewrite (pw_n _ _ _ _ _ _ _ _ _ _ _ W') in Rg0. rewrite En in PD.
          assert (ND' : NoDup (l0 ++ [i])) by exact (rep_NoDup _ _ (wf_ina _ _ _ Wb')). destruct TQ' as (LE' & OQ & _). pose proof (zlen_nonneg k1).
          apply (curv_pos n (l0 ++ [i]) Hm Q (zlen l0 - zlen k1) rho PD ND' Rg0 OQ); [lia|lia|]. apply CV; auto.
        - destruct (o_enableFlippingBounds (p_opts s) && true) eqn:Fl.
          + specialize (FL U eq_refl). destruct (UR eq_refl) as (_ & PF). lra.
          + destruct (Rlt_le_dec 0 rho) as [|Le]; [assumption|]. destruct (NF U eq_refl Le) as (Bad & _). discriminate Bad. }
      apply R1; auto.
  - apply andb_prop in U as [-> P]. exists l0, l1, k0, k1. destruct FC as (c & f2 & lb & ub & ES & SM & ST & EI & EA & _).
    assert (FR : pframe s s') by (rewrite ES; unfold pframe; cbn; repeat (split; [reflexivity|]); right; auto). assert (PH : plainH (p_b s') = plainH (p_b s)) by now apply pframe_plain.
    split; [split; [|split; [apply (pframe_hs s); [exact FR|exact (conj HD CW)]|]]|].
    + constructor; [exact W'|exact F'|rewrite ES; exact Ly|rewrite ES; exact FA|]. rewrite ES. apply I.
    + cbn [next]. intros Er. apply andb_prop in Er as [-> _]. intros _. specialize (RV eq_refl P). rewrite ES. exact RV.
    + cbn [next]. intros Er X _ _. apply andb_prop in Er as [-> _]. specialize (X eq_refl P). rewrite ES. exact X.
Qed.

Lemma step_chol rv s l0 l1 k0 k1 : good rv s l0 l1 k0 k1 -> legal Am rv s OChol ->
  wp (run OChol s) (fun '(r, s') => r = SUCCESSFUL_RETURN -> after rv s l0 k1 OChol s').
Proof using zero_0.
  intros (I & (HD & CW) & RV) U. pose proof I as [W F Ly FA TQ]. destruct (br_dims _ _ _ _ _ _ _ _ I) as (En & Em & EF & EC & EX & ND). cbn [run].
  assert (UQ : l1 = [] -> k1 = [] -> unitq n l0 (p_Q s) \/ exists c, forall i j, Hm i j = c * delta i j).
  { intros -> ->. left. cbn [legal] in U. change (zlen (@nil Z)) with 0%Z in *. specialize (U EX EC). rewrite EF in U. intros v q Hv Hq. destruct (In_zn 0%Z l0 v Hv) as (i & Hi & <-). change (zn 0%Z l0 i) with (zz l0 i).
    rewrite <- (br_Qe _ _ _ _ _ _ _ _ I i q Hi), (U i q Hi Hq). unfold delta. change (zn 0%Z l0 q) with (zz l0 q). destruct (Z.eqb_spec i q) as [->|Ne]; [now rewrite Z.eqb_refl|].
    destruct (Z.eqb_spec (zz l0 i) (zz l0 q)) as [E|]; [|reflexivity]. exfalso. apply Ne. rewrite <- (spec_pos_unique l0 i ND Hi), <- (spec_pos_unique l0 q ND Hq). now rewrite E. }
  destruct (computeProjectedCholesky_ok eps zero infty zero_0 n m Am Hm s l0 l1 k0 k1 W TQ HD UQ) as (Q & LQ & TQ' & _ & K).
  eapply wp_mono; [exact K|]. intros [r s'] (Ra & LR & C) ->. destruct C as [(_ & ES & RI & PD & DP)|[(Bad & _)|([Bad|Bad] & _)]]; try discriminate Bad.
  exists l0, l1, k0, k1. assert (FR : pframe s s') by (rewrite ES; unfold pframe; cbn; repeat (split; [reflexivity|]); now left).
  split; [split; [|split; [apply (pframe_hs s); [exact FR|exact (conj HD CW)]|]]|].
  - rewrite ES. constructor; [|destruct F; constructor; assumption|exact Ly|exact FA|exact TQ']. destruct W. constructor; assumption.
  - intros _ P. rewrite ES. destruct RI as ((_ & D) & S). split; [exact D|exact S].
  - intros _ _ _ P. rewrite ES. exact RI.
Qed.

Lemma step_ok rv s l0 l1 k0 k1 o : good rv s l0 l1 k0 k1 -> trusted rv s l0 k1 o -> legal Am rv s o -> wp (run o s) (fun '(r, s') => goes_on o r -> after rv s l0 k1 o s').
Proof using zero_0 eps_pos J.
  intros G CH L. destruct o; cbn [goes_on].
  - eapply wp_mono; [eapply step_addC; eauto|]. intros [r s'] H _. exact H.
  - eapply wp_mono; [eapply step_addB; eauto|]. intros [r s'] H _. exact H.
  - eapply step_remC; eauto.
  - eapply step_remB; eauto.
  - eapply step_chol; eauto.
Qed.

Lemma exec_ok rv s os rv' s' : exec cheap Am rv s os rv' s' -> forall l0 l1 k0 k1, good rv s l0 l1 k0 k1 -> exists l0' l1' k0' k1', good rv' s' l0' l1' k0' k1'.
Proof using zero_0 eps_pos J.
  induction 1 as [rv s|rv s o r s1 os rv' s' L PP E GO X IH]; intros l0 l1 k0 k1 G; [eauto 6|].
  assert (S := step_ok rv s l0 l1 k0 k1 o G (or_introl PP) L). rewrite E in S. destruct (S GO) as (l0' & l1' & k0' & k1' & G' & _). eapply IH; eauto.
Qed.
Lemma exec_exact rv s os rv' s' : exec (sound Hm) Am rv s os rv' s' -> forall l0 l1 k0 k1, good rv s l0 l1 k0 k1 -> (rv = true -> Rexact n s (zlen l0 - zlen k1) l0 Hm) ->
  exists l0' l1' k0' k1', good rv' s' l0' l1' k0' k1' /\ (rv' = true -> Rexact n s' (zlen l0' - zlen k1') l0' Hm).
Proof using zero_0 eps_pos J.
  induction 1 as [rv s|rv s o r s1 os rv' s' L PP E GO X IH]; intros l0 l1 k0 k1 G RX; [eauto 7|].
  assert (S := step_ok rv s l0 l1 k0 k1 o G (or_intror RX) L). rewrite E in S. destruct (S GO) as (l0' & l1' & k0' & k1' & G' & X'). eapply IH; eauto.
Qed.

Lemma ready_good s : ready n m Am Hm s -> exists s0, setupTQfactorisation (N := N) s = Ok (SUCCESSFUL_RETURN, s0) /\ exists l0 l1 k0, good false s0 l0 l1 k0 [].
Proof using zero_0.
  intros (l0 & l1 & k0 & W & F & Ly & FA & HD & CW). destruct (setupTQ_ok eps zero infty n m Am s l0 l1 k0 W) as (T & Q & E & W' & U & TQ).
  eexists. split; [exact E|]. exists l0, l1, k0. split; [|split; [exact (conj HD CW)|discriminate]]. constructor; [exact W'|destruct F; constructor; assumption|exact Ly|exact FA|exact TQ].
Qed.
End Step.

(** C47: TQ factorisation, over all sequences *)
Theorem C47_TQ_exact_partial n m Am Hm s : ready n m Am Hm s ->
  exists s0, setupTQfactorisation (N := N) s = Ok (SUCCESSFUL_RETURN, s0) /\ TQ_exact Am s0 /\
    forall os rv s', exec cheap Am false s0 os rv s' -> TQ_exact Am s' /\ forall o, legal Am rv s' o -> cheap s' o -> exists r s'', run o s' = Ok (r, s'').
Proof using zero_0 eps_pos J.
  intros RD. destruct (ready_good n m Am Hm s RD) as (s0 & E & l0 & l1 & k0 & G). exists s0. split; [exact E|]. split; [eapply pinv_exact; apply G|].
  intros os rv s' X. destruct (exec_ok n m Am Hm _ _ _ _ _ X l0 l1 k0 [] G) as (l0' & l1' & k0' & k1' & G'). split; [eapply pinv_exact; apply G'|].
  intros o L CH. destruct (wp_inv _ _ (step_ok n m Am Hm rv s' l0' l1' k0' k1' o G' (or_introl CH) L)) as ([r s''] & E' & _). eauto.
Qed.

(** C48: the projected Cholesky factor *)
Theorem C48_Cholesky_exact_partial n m Am Hm s : ready n m Am Hm s ->
  exists s0, setupTQfactorisation (N := N) s = Ok (SUCCESSFUL_RETURN, s0) /\
    forall os s', exec (sound Hm) Am false s0 os true s' -> Chol_exact Hm s' /\ TQ_exact Am s' /\ forall o, legal Am true s' o -> exists r s'', run o s' = Ok (r, s'').
Proof using zero_0 eps_pos J.
  intros RD. destruct (ready_good n m Am Hm s RD) as (s0 & E & l0 & l1 & k0 & G). exists s0. split; [exact E|].
  intros os s' X. destruct (exec_exact n m Am Hm _ _ _ _ _ X l0 l1 k0 [] G ltac:(discriminate)) as (l0' & l1' & k0' & k1' & G' & RX). split; [eapply rinv_exact; [apply G'|]; auto|]. split; [eapply pinv_exact; apply G'|].
  intros o L. destruct (wp_inv _ _ (step_ok n m Am Hm true s' l0' l1' k0' k1' o G' (or_intror RX) L)) as ([r s''] & E' & _). eauto.
Qed.

(** a positive definite Hessian is factorised, from where any sequence may start *)
Theorem C48_first_factorisation n m Am Hm s : ready n m Am Hm s -> posdef n Hm -> plainH (p_b s) = true ->
  exists s0 s1, setupTQfactorisation (N := N) s = Ok (SUCCESSFUL_RETURN, s0) /\ legal Am false s0 OChol /\ run OChol s0 = Ok (SUCCESSFUL_RETURN, s1) /\
    exec (sound Hm) Am false s0 [OChol] true s1 /\ p_opts s1 = p_opts s /\ pV s1 = pV s /\ pC s1 = pC s /\ p_noUpdate s1 = p_noUpdate s /\ p_cons s1 = p_cons s /\ p_bounds s1 = p_bounds s /\ q_htype (p_b s1) = q_htype (p_b s).
Proof using zero_0 eps_pos J.
  intros (l0 & l1 & k0 & W & F & Ly & FA & HD & CW) PD PH. destruct (setupTQ_ok eps zero infty n m Am s l0 l1 k0 W) as (T & Q & E & W' & U & TQ).
  set (s0 := set_p_T (N := N) T (set_p_Q (N := N) Q s)) in *.
  assert (I : pinv n m Am s0 l0 l1 k0 []) by (constructor; [exact W'|destruct F; constructor; assumption|exact Ly|exact FA|exact TQ]).
  destruct (br_dims _ _ _ _ _ _ _ _ I) as (En & Em & EF & EC & EX & ND).
  assert (LG : legal Am false s0 OChol).
  { intros _ _ i p Hi Hp. rewrite EF in Hi, Hp. rewrite (br_Qe _ _ _ _ _ _ _ _ I i p Hi). rewrite U by (try exact Hp; apply zn_In; exact Hi).
    unfold delta. change (zn 0%Z l0 p) with (zz l0 p). destruct (Z.eqb_spec i p) as [->|Ne]; [now rewrite Z.eqb_refl|].
    destruct (Z.eqb_spec (zz l0 i) (zz l0 p)) as [X|]; [|reflexivity]. exfalso. apply Ne. rewrite <- (spec_pos_unique l0 i ND Hi), <- (spec_pos_unique l0 p ND Hp). now rewrite X. }
  destruct (computeProjectedCholesky_ok eps zero infty zero_0 n m Am Hm s0 l0 l1 k0 [] W' TQ HD (fun _ _ => or_introl U)) as (Q' & LQ & TQ' & _ & K).
  destruct (wp_inv _ _ K) as ([r s1] & E1 & Ra & LR & C).
  destruct C as [(-> & ES & _)|[(_ & _ & _ & Bad)|(_ & _ & Bad & _)]].
  - exists s0, s1. split; [exact E|]. split; [exact LG|]. split; [exact E1|]. split; [|rewrite ES; repeat split; reflexivity].
    eapply exec_cons; [exact LG|exact Logic.I|exact E1|reflexivity|apply exec_nil].
  - exfalso. apply Bad. destruct (range_b _ _ _ (pw_b _ _ _ _ _ _ _ _ _ _ _ W')) as (Rg0 & _). change (st_n (p_bounds s0)) with (pV s0) in Rg0. rewrite En in Rg0.
    destruct TQ' as (LE & OQ & _). apply (zhz_posdef n l0 Hm _ _ PD ND Rg0 OQ). change (zlen (@nil Z)) with 0%Z. lia.
  - exfalso. change (q_htype (p_b s0)) with (q_htype (p_b s)) in Bad. unfold plainH, is_hst in PH. rewrite Bad in PH. discriminate PH.
Qed.

(** every problem constructed and loaded with arrays is [ready] once all bounds
    and constraints are set inactive *)
Definition loaded (n m : Z) (h : HessianType) (o : options N) (H g A : arr) (lb ub lbA ubA : option arr) : res (qp N) :=
  '(_, s) <- p_setupQPdata (N := N) junk (HArr (N := N) (Some H)) (Some g) (AArr (N := N) (Some A)) lb ub lbA ubA (p_new (N := N) junk n m h o) ;;
  '(_, b) <- st_setupAll KBounds (p_bounds s) ST_INACTIVE ;;
  '(_, c) <- st_setupAll KConstraints (p_cons s) ST_INACTIVE ;;
  Ok (set_p_cons (N := N) c (up_b (fun q => set_q_status (N := N) QPS_PREPARINGAUXILIARYQP (set_q_bounds (N := N) b q)) s)).

Lemma setA_arr n m (A : arr) (s : qp N) : (0 < n)%Z -> (0 <= m)%Z -> pV s = n -> pC s = m -> zlen A = (m * n)%Z -> zlen (q_x (p_b s)) = n -> zlen (p_lbA s) = m -> zlen (p_ubA s) = m ->
  zlen (p_Ax s) = m -> zlen (p_Ax_l s) = m -> zlen (p_Ax_u s) = m ->
  exists Ax Axl Axu : arr, zlen Ax = m /\ zlen Axl = m /\ zlen Axu = m /\
    p_setA (N := N) junk (AArr (N := N) (Some A)) s = Ok (SUCCESSFUL_RETURN,
      set_p_Ax_l (N := N) Axl (set_p_Ax_u (N := N) Axu (set_p_Ax (N := N) Ax (set_p_freeA (N := N) true (set_p_A (N := N) (Some (ADense (N := N) (mkDense m n n A))) s))))).
Proof using zero_0.
  intros Hn Hm V C LA Lx Ll Lu La L1 L2. unfold p_setA. rewrite V, C. destruct (Z.eqb_spec n 0) as [|NE]; [lia|].
  set (s1 := set_p_freeA (N := N) true _). unfold a_activity. change (pV s1) with (pV s). change (pC s1) with (pC s). rewrite V, C.
  assert (WA : wf_dense (mkDense m n n A)) by (unfold wf_dense; cbn; repeat split; try lia; rcar; rewrite LA; nia).
  pose proof (dense_amat_full eps zero infty zero_0 m n (mkDense m n n A) WA eq_refl eq_refl eq_refl) as FA.
  destruct (af_times _ _ _ _ _ _ _ FA n1 n0 (q_x (p_b s1)) (p_Ax s1) n m) as (Ax & E & LAx & _); auto; try lia.
  { change (q_x (p_b s1)) with (q_x (p_b s)). rcar. lia. } { change (p_Ax s1) with (p_Ax s). rcar. lia. }
  match goal with |- context [bind (bind ?m0 _) _] => replace m0 with (@Ok (list R) Ax) by (symmetry; exact E) end. cbn [bind].
  change (p_Ax s1) with (p_Ax s) in LAx. change (p_ubA s1) with (p_ubA s). change (p_lbA s1) with (p_lbA s). change (p_Ax_u s1) with (p_Ax_u s). change (p_Ax_l s1) with (p_Ax_l s).
  match goal with |- context [for_up 0 m ?f ?st] => assert (W : wp (for_up 0 m f st) (fun '(u, l) => zlen (u : arr) = m /\ zlen (l : arr) = m)) end.
  { apply wp_for_up with (I := fun _ '(u, l) => zlen (u : arr) = m /\ zlen (l : arr) = m); [lia|auto| |].
    - intros i [u l] Hi (K1 & K2). rcar. rewrite (rd_ok 0) by lia. cbn [bind]. rewrite (rd_ok 0) by lia. cbn [bind]. rewrite (rd_ok 0) by (rcar; lia). cbn [bind].
      rewrite (@wr_ok R) by lia. cbn [bind]. rewrite (@wr_ok R) by lia. cbn [bind wp]. rewrite !zlen_zupd. auto.
    - intros [u l] K. exact K. }
  destruct (wp_inv _ _ W) as ([u l] & Eu & K1 & K2). rewrite Eu. cbn [bind]. exists Ax, l, u. repeat split; auto; rcar; lia.
Qed.
Theorem C47_ready n m h (o : options N) (H g A : arr) (lb ub lbA ubA : option arr) : (0 < n)%Z -> (0 < m)%Z -> h <> HST_ZERO -> h <> HST_IDENTITY ->
  zlen H = (n * n)%Z -> zlen g = n -> zlen A = (m * n)%Z -> olen (N := N) n lb -> olen (N := N) n ub -> olen (N := N) m lbA -> olen (N := N) m ubA ->
  (forall i j, (0 <= i < n)%Z -> (0 <= j < n)%Z -> z H (i * n + j) = z H (j * n + i)) ->
  exists s, loaded n m h o H g A lb ub lbA ubA = Ok s /\ ready n m (fun i j => z A (i * n + j)) (fun i j => z H (i * n + j)) s /\
    pV s = n /\ pC s = m /\ p_opts s = o /\ q_htype (p_b s) = h /\ pFX s = 0%Z /\ pAC s = 0%Z /\ p_noUpdate s = false /\
    (forall i, (0 <= i < n)%Z -> st_getStatus (p_bounds s) i = Ok ST_INACTIVE) /\ (forall i, (0 <= i < m)%Z -> st_getStatus (p_cons s) i = Ok ST_INACTIVE).
Proof using zero_0 J.
  intros Hn Hm NZ NI LH Lg LA Llb Lub LlbA LubA SY. set (Am := fun i j => z A (i * n + j)). set (Hm' := fun i j => z H (i * n + j)).
  set (dA := mkDense m n n A). set (dH := mkDense n n n H).
  assert (WA : wf_dense dA) by (unfold wf_dense, dA; cbn; repeat split; try lia; rcar; rewrite LA; nia).
  assert (WH : wf_dense dH) by (unfold wf_dense, dH; cbn; repeat split; try lia; rcar; rewrite LH; nia).
  assert (FA : amat_full eps zero infty m n (ADense (N := N) dA) Am) by (apply (dense_amat_full eps zero infty zero_0); auto).
  assert (Hz : 0 <= zero < 1) by lra.
  assert (SO : symm_on n Hm') by (intros i j Hi Hj; apply SY; auto).
  assert (MO : mat_ok eps zero infty n (SDense (N := N) dH) Hm') by (apply dense_mat_ok; auto; lia).
  assert (MB : mat_bil eps zero infty n (SDense (N := N) dH) Hm') by (apply dense_mat_bil; auto; lia).
  unfold loaded. generalize (eq_refl (p_new (N := N) junk n m h o)). generalize (p_new (N := N) junk n m h o) at 2 3. intros s0 F0.
  unfold p_new, qb_new in F0.
  destruct (Z.leb_spec n 0) as [|_]; [lia|]. destruct (Z.ltb_spec m 0) as [|_]; [lia|]. destruct (Z.ltb_spec 0 m) as [_|]; [|lia]. cbn [negb set_q_flip set_q_y] in F0.
  assert (VN : nV (p_b s0) = n) by (rewrite <- F0; apply (init_wf n st_empty Hn)).
  assert (VC : pC s0 = m) by (rewrite <- F0; apply (init_wf m st_empty Hm)).
  assert (ZL : forall k, (0 <= k)%Z -> zlen (zeros (N := N) k) = k) by (intros k Hk; apply zeros_len; exact Hk).
  unfold p_setupQPdata.
  rewrite (setupQPdata_arr (N := N) n) by (solve [auto|lia|rewrite <- F0; apply ZL; lia]).
  cbn [bind]. change (negb (SUCCESSFUL_RETURN =r? SUCCESSFUL_RETURN)) with false. cbv iota.
  match goal with |- context [set_p_b ?b s0] => set (b1 := b) end.
  change (pC (set_p_b (N := N) b1 s0)) with (pC s0). rewrite VC. destruct (Z.ltb_spec 0 m) as [_|]; [|lia]. cbn [andb aarg_null].
  change (p_lbA (set_p_b (N := N) b1 s0)) with (p_lbA s0). change (p_ubA (set_p_b (N := N) b1 s0)) with (p_ubA s0).
  rewrite (setVec_ok (N := N) m _ lbA) by (solve [auto|lia|rewrite <- F0; apply ZL; lia]). cbn [bind].
  rewrite (setVec_ok (N := N) m _ ubA) by (solve [auto|lia|rewrite <- F0; apply ZL; lia]). cbn [bind].
  assert (JL : forall k, (0 <= k)%Z -> zlen (junk k) = k) by (intros k Hk; apply J; exact Hk).
  destruct (setA_arr n m A (set_p_ubA (N := N) (taken (N := N) m ubA nINFTY) (set_p_lbA (N := N) (taken (N := N) m lbA (nopp (nINFTY (n := N)))) (set_p_b (N := N) b1 s0)))) as (Ax & Axl & Axu & L1 & L2 & L3 & E);
    auto; try lia; try (apply zlen_taken; auto; lia); try (rewrite <- F0; solve [apply JL; lia|apply ZL; lia]).
  { change (zlen (q_x (p_b s0)) = n). rewrite <- F0. apply ZL. lia. }
  rewrite E. cbn [bind]. clear E. set (s2 := set_p_Ax_l (N := N) Axl _).
  destruct (setupAll_ok KBounds ST_INACTIVE (p_bounds s2)) as (b' & -> & Wb & SMb & Sb); auto.
  { change (p_bounds s2) with (p_bounds s0). rewrite <- F0. apply (init_wf n st_empty Hn). }
  { change (p_bounds s2) with (p_bounds s0). intros i Hi. assert (Hi' : (0 <= i < n)%Z) by (change (st_n (p_bounds s0)) with (nV (p_b s0)) in Hi; lia). rewrite <- F0. exact (proj2 (proj2 (init_wf n st_empty Hn)) i Hi'). }
  destruct (setupAll_ok KConstraints ST_INACTIVE (p_cons s2)) as (c' & -> & Wc & SMc & Sc); auto.
  { change (p_cons s2) with (p_cons s0). rewrite <- F0. apply (init_wf m st_empty Hm). }
  { change (p_cons s2) with (p_cons s0). intros i Hi. assert (Hi' : (0 <= i < m)%Z) by (change (st_n (p_cons s0)) with (pC s0) in Hi; lia). rewrite <- F0. exact (proj2 (proj2 (init_wf m st_empty Hm)) i Hi'). }
  cbn [bind is_active] in *. eexists. split; [reflexivity|]. split.
  2:{ split; [change (st_n b' = n); rewrite (proj1 SMb); exact VN|]. split; [change (st_n c' = m); rewrite (proj1 SMc); exact VC|]. split; [change (q_opts (p_b s0) = o); rewrite <- F0; reflexivity|].
      split; [change (q_htype (p_b s0) = h); rewrite <- F0; reflexivity|]. split; [exact (rep_len _ _ (wf_act _ _ _ Wb))|]. split; [exact (rep_len _ _ (wf_act _ _ _ Wc))|]. split; [reflexivity|].
      split; intros i Hi; [assert (Hb : (0 <= i < st_n (p_bounds s2))%Z) by (change (st_n (p_bounds s2)) with (nV (p_b s0)); lia)|assert (Hb : (0 <= i < st_n (p_cons s2))%Z) by (change (st_n (p_cons s2)) with (pC s0); lia)].
      - rewrite <- (Sb i Hb). apply (getStatus_ok _ _ _ _ Wb). change (p_bounds _) with b'. rewrite (proj1 SMb). exact Hb.
      - rewrite <- (Sc i Hb). apply (getStatus_ok _ _ _ _ Wc). change (p_cons _) with c'. rewrite (proj1 SMc). exact Hb. }
  exists (setup_order (p_bounds s2)), [], (setup_order (p_cons s2)). set (s3 := set_p_cons (N := N) c' _).
  assert (FN : (0 <= m)%Z) by lia.
  split; [|split; [|split; [|split; [|split]]]].
  - constructor.
    + change (st_n b' = n). rewrite (proj1 SMb). exact VN.
    + change (st_n c' = m). rewrite (proj1 SMc). exact VC.
    + exact Wb.
    + exact Wc.
    + change (zlen (p_Q s0) = (n * n)%Z). rewrite <- F0. apply JL. nia.
    + change (zlen (q_R (p_b s0)) = (n * n)%Z). rewrite <- F0. apply ZL. nia.
    + change (p_sizeT s0 = Z.min n m). now rewrite <- F0.
    + change (zlen (p_T s0) = (p_sizeT s0 * p_sizeT s0)%Z). rewrite <- F0. apply JL. cbn. nia.
    + eexists. split; [reflexivity|]. apply FA.
  - constructor.
    + change (exists g0, holds (N := N) n m (q_flip (p_b s0)) g0). rewrite <- F0. cbn [p_b q_flip]. exists (mkSnap None None None None None). constructor; try reflexivity. repeat split.
    + change (zlen (taken (N := N) n lb (nopp (nINFTY (n := N)))) = n). apply zlen_taken; auto; lia.
    + change (zlen (taken (N := N) n ub (nINFTY (n := N))) = n). apply zlen_taken; auto; lia.
    + change (zlen (taken (N := N) m lbA (nopp (nINFTY (n := N)))) = m). apply zlen_taken; auto.
    + change (zlen (taken (N := N) m ubA (nINFTY (n := N))) = m). apply zlen_taken; auto.
    + exact L2.
    + exact L3.
  - change (zlen (q_y (p_b s0)) = (n + m)%Z). rewrite <- F0. apply ZL. lia.
  - eexists. split; [reflexivity|exact FA].
  - split; [|split; [exact SO|]].
    + unfold hess. change (q_htype (p_b s3)) with (q_htype (p_b s0)). assert (EH : q_htype (p_b s0) = h) by (rewrite <- F0; reflexivity). rewrite EH.
      destruct h; try contradiction; exists (SDense (N := N) dH); split; auto.
    + intros M _ EM. injection EM as <-. exact MB.
  - constructor.
    + change (zlen (p_tempA s0) = n). rewrite <- F0. apply JL. lia.
    + change (zlen (p_tempB s0) = m). rewrite <- F0. apply JL. lia.
    + change (zlen (q_tmp (p_b s0)) = n). rewrite <- F0. apply JL. lia.
    + change (zlen (p_dxy s0) = m). rewrite <- F0. apply JL. lia.
    + change (zlen (p_dxz s0) = n). rewrite <- F0. apply JL. lia.
    + change (zlen (p_ZFR s0) = n). rewrite <- F0. apply JL. lia.
    + change (zlen (p_dyAC s0) = m). rewrite <- F0. apply JL. lia.
Qed.
End TQ.
