(** Partial correctness of the functions of class QProblem: which members and
    options stay as they are, and which return values are possible.  No
    assumption is made on the state, the numbers or the data. *)
From Verif Require Import Base Types Num Options Indexlist SubjectTo Flipper Matrices LinAlg QProblemB QProblem QProblem2 QProblem3 QProblem4 QProblem5.
Local Open Scope Z_scope.

(** [m] may fail, but a result it returns satisfies [Q] *)
Definition pc {A} (m : res A) (Q : A -> Prop) : Prop := match m with Ok x => Q x | _ => True end.

Lemma pc_bind {A B} (m : res A) (f : A -> res B) (P : A -> Prop) (Q : B -> Prop) : pc m P -> (forall x, P x -> pc (f x) Q) -> pc (bind m f) Q.
Proof. destruct m; cbn; auto. Qed.
Lemma pc_any {A B} (m : res A) (f : A -> res B) (Q : B -> Prop) : (forall x, pc (f x) Q) -> pc (bind m f) Q.
Proof. destruct m; cbn; auto. Qed.
Lemma pc_mono {A} (m : res A) (P Q : A -> Prop) : pc m P -> (forall x, P x -> Q x) -> pc m Q.
Proof. destruct m; cbn; auto. Qed.
Lemma pc_assoc {A B C} (m : res A) (f : A -> res B) (g : B -> res C) (Q : C -> Prop) :
  pc (bind m (fun x => bind (f x) g)) Q -> pc (bind (bind m f) g) Q.
Proof. destruct m; cbn; auto. Qed.
Lemma pc_true {A} (m : res A) : pc m (fun _ => True).
Proof. destruct m; cbn; auto. Qed.
Lemma pc_eq {A} (m : res A) (Q : A -> Prop) x : pc m Q -> m = Ok x -> Q x.
Proof. intros H ->. exact H. Qed.

Lemma pc_for_up {S} (I : S -> Prop) lo hi body (s : S) : I s -> (forall i s, I s -> pc (body i s) I) -> pc (for_up lo hi body s) I.
Proof.
  intros H0 Hs. unfold for_up. generalize (Z.to_nat (hi - lo)) as k. intros k. revert lo s H0. induction k as [|k IH]; intros; cbn; [exact H0|].
  eapply pc_bind; [apply Hs, H0|]. intros. apply IH. auto.
Qed.
(** in an upward loop that is left by [Brk] the index is below the end *)
Lemma pc_forb_up {S E} (I : Z -> S -> Prop) (J : E -> Prop) lo hi body (s : S) : I lo s ->
  (forall i s, lo <= i < hi -> I i s -> pc (body i s) (fun c => match c with Next s' => I (i + 1) s' | Brk e => J e end)) ->
  pc (forb_up lo hi body s) (fun c => match c with Next s' => I (Z.max lo hi) s' | Brk e => J e end).
Proof.
  intros H0 Hs. unfold forb_up. remember (Z.to_nat (hi - lo)) as k eqn:Ek.
  cut (forall l s, lo <= l <= Z.max lo hi -> Z.to_nat (hi - l) = k -> I l s ->
        pc (forb_up_n k l body s) (fun c => match c with Next s' => I (Z.max lo hi) s' | Brk e => J e end)).
  { intros X. apply X; auto. lia. }
  clear s H0 Ek. induction k as [|k IH]; intros l s Hl Ek H; cbn.
  - replace (Z.max lo hi) with l by lia. exact H.
  - eapply pc_bind; [apply Hs; [lia|exact H]|]. intros [s'|e] C; [|exact C]. apply IH; auto; lia.
Qed.
Lemma pc_forb {S E} (I : S -> Prop) (J : E -> Prop) lo hi body (s : S) : I s ->
  (forall i s, I s -> pc (body i s) (fun c => match c with Next s' => I s' | Brk e => J e end)) ->
  pc (forb_up lo hi body s) (fun c => match c with Next s' => I s' | Brk e => J e end).
Proof. intros H0 Hs. apply (pc_forb_up (fun _ => I) J); auto. Qed.

(** walk through a program without stateful calls *)
Ltac pwalk := repeat (cbv beta zeta;
  match goal with
  | |- pc (Ok _) _ => cbn [pc]
  | |- pc UB _ => exact I
  | |- pc Hang _ => exact I
  | |- pc (bind UB _) _ => exact I
  | |- pc (bind Hang _) _ => exact I
  | |- pc (bind (bind _ _) _) _ => apply pc_assoc
  | |- pc (bind (Ok _) _) _ => cbn [bind]
  | |- pc (bind (if ?b then _ else _) _) _ => destruct b eqn:?
  | |- pc (bind (match ?b with _ => _ end) _) _ => destruct b eqn:?
  | |- pc (if ?b then _ else _) _ => destruct b eqn:?
  | |- pc (match ?b with _ => _ end) _ => destruct b eqn:?
  | |- pc (bind _ _) _ => apply pc_any; intro
  end).

Section Frame.
Context {N : Num}.
Notation arr := (list N).
Notation qpb := (qpb N).
Notation qp := (qp N).
Variable junk : Z -> arr.
Variable cpu : Z -> bool.

(** the options the homotopy does not write; it writes epsRegularisation,
    enableFullLITests and epsLITests *)
Definition same_opts (o o' : options N) : Prop :=
  o_enableRamping o' = o_enableRamping o /\ o_enableFarBounds o' = o_enableFarBounds o /\
  o_growFarBounds o' = o_growFarBounds o /\ o_initialFarBounds o' = o_initialFarBounds o /\
  o_boundTolerance o' = o_boundTolerance o /\ o_boundRelaxation o' = o_boundRelaxation o /\
  o_enableRegularisation o' = o_enableRegularisation o /\ o_enableNZCTests o' = o_enableNZCTests o /\
  o_enableFlippingBounds o' = o_enableFlippingBounds o /\ o_enableDropInfeasibles o' = o_enableDropInfeasibles o /\
  o_enableDriftCorrection o' = o_enableDriftCorrection o /\ o_enableEqualities o' = o_enableEqualities o /\
  o_terminationTolerance o' = o_terminationTolerance o.
(** the members no update touches: status, flags of the problem data, matrices,
    ramping parameters *)
Definition same_base (b b' : qpb) : Prop :=
  same_opts (q_opts b) (q_opts b') /\ q_H b' = q_H b /\ q_freeH b' = q_freeH b /\ q_regVal b' = q_regVal b /\
  q_ramp0 b' = q_ramp0 b /\ q_ramp1 b' = q_ramp1 b /\ q_count b' = q_count b /\ q_haveChol b' = q_haveChol b.
Definition kept (s s' : qp) : Prop :=
  same_base (p_b s) (p_b s') /\ p_A s' = p_A s /\ p_freeA s' = p_freeA s /\ p_sizeT s' = p_sizeT s.
Definition kstat (s s' : qp) : Prop := kept s s' /\ q_status (p_b s') = q_status (p_b s).
Definition kinf (s s' : qp) : Prop := kstat s s' /\ q_infeasible (p_b s') = q_infeasible (p_b s).
(** a return value of a step, not of the solver *)
Definition inner (r : returnValue) : Prop :=
  match r with RET_MAX_NWSR_REACHED | RET_HOTSTART_FAILED_AS_QP_NOT_INITIALISED => False | _ => True end.
(** updates: the flag [infeasible] may be set on failure only *)
Definition upd_ok (s : qp) (x : returnValue * qp) : Prop :=
  kstat s (snd x) /\ inner (fst x) /\ (fst x = SUCCESSFUL_RETURN -> q_infeasible (p_b (snd x)) = q_infeasible (p_b s)).
Definition upd_inf (s : qp) (x : returnValue * qp) : Prop := kinf s (snd x) /\ inner (fst x).

Lemma kept_refl s : kept s s.
Proof. repeat split. Qed.
Lemma kstat_refl s : kstat s s.
Proof. repeat split. Qed.
Lemma kinf_refl s : kinf s s.
Proof. repeat split. Qed.
Lemma same_opts_trans a b c : same_opts a b -> same_opts b c -> same_opts a c.
Proof. unfold same_opts; intuition congruence. Qed.
Lemma same_base_trans a b c : same_base a b -> same_base b c -> same_base a c.
Proof. unfold same_base; intuition (try congruence). eapply same_opts_trans; eauto. Qed.
Lemma kept_trans a b c : kept a b -> kept b c -> kept a c.
Proof. unfold kept; intuition (try congruence). eapply same_base_trans; eauto. Qed.
Lemma kstat_trans a b c : kstat a b -> kstat b c -> kstat a c.
Proof. unfold kstat; intuition (try congruence). eapply kept_trans; eauto. Qed.
Lemma kinf_trans a b c : kinf a b -> kinf b c -> kinf a c.
Proof. unfold kinf; intuition (try congruence). eapply kstat_trans; eauto. Qed.

Lemma upd_inf_ok s x : upd_inf s x -> upd_ok s x.
Proof. intros ((? & ?) & ?). split; [|split]; auto. Qed.
(** the flag was false: it is false, or the update failed *)
Lemma inner_max r : inner r -> r <> RET_MAX_NWSR_REACHED.
Proof. intros H ->. exact H. Qed.

Ltac kin := match goal with H : kinf _ _ |- _ => exact H | H : kinf _ _ |- _ => exact (proj1 H)
  | H : kstat _ _ |- _ => exact H | H : kept _ _ |- _ => exact H end.
Ltac inn := repeat match goal with |- inner (if ?b then _ else _) => destruct b end; first [exact I | assumption].
Ltac pleaf :=
  try match goal with |- pc (Ok _) _ => cbn [pc] end;
  lazymatch goal with
  | |- upd_inf _ _ => split; cbn [fst snd]; [kin|inn]
  | |- kinf _ _ => kin
  | _ => idtac
  end.

Ltac known := fail.
Ltac pstep :=
  cbv beta zeta;
  match goal with
  | |- pc (Ok _) _ => cbn [pc]
  | |- pc UB _ => exact I
  | |- pc Hang _ => exact I
  | |- pc (bind UB _) _ => exact I
  | |- pc (bind Hang _) _ => exact I
  | |- pc (bind (bind _ _) _) _ => apply pc_assoc
  | |- pc (bind (Ok _) _) _ => cbn [bind]
  | |- pc (bind _ _) _ => eapply pc_bind; [known|]; cbv beta; [intros [? ?] [? ?]; cbn [fst snd] in *]
  | |- pc (bind (if ?b then _ else _) _) _ => destruct b eqn:?
  | |- pc (bind (match ?b with _ => _ end) _) _ => destruct b eqn:?
  | |- pc (if ?b then _ else _) _ => destruct b eqn:?
  | |- pc (let '_ := ?b in _) _ => destruct b eqn:?
  | |- pc (match ?b with _ => _ end) _ => destruct b eqn:?
  | |- pc (bind _ _) _ => apply pc_any; intro
  | |- pc _ _ => known
  end.
Ltac psteps := repeat pstep.

Lemma computeCholesky_frame b : pc (computeCholesky b) (fun '(r, b') =>
  same_base b b' /\ q_status b' = q_status b /\ q_infeasible b' = q_infeasible b /\ inner r).
Proof. unfold computeCholesky. psteps; repeat match goal with |- context [if ?b then _ else _] => destruct b end; repeat split. Qed.

Section Start.
Variable s0 : qp.
Lemma addC_upd number v upd s : kinf s0 s -> pc (addConstraint_update junk number v upd s) (upd_inf s0).
Proof. intros K. unfold addConstraint_update. psteps; pleaf. Qed.
Lemma addB_upd number v upd s : kinf s0 s -> pc (addBound_update junk number v upd s) (upd_inf s0).
Proof. intros K. unfold addBound_update. psteps; pleaf. Qed.

Ltac known ::= first [apply addC_upd; kin | apply addB_upd; kin].

Ltac kdone := try pleaf; try match goal with H : (if ?b then _ else _) = Some _ |- _ => destruct b; try discriminate H | H : (if ?b then _ else _) = inl _ |- _ => destruct b; try discriminate H end;
  match goal with H : Some _ = Some _ |- _ => inversion H; subst; pleaf | H : inl _ = inl _ |- _ => inversion H; subst; pleaf | _ => idtac end.
Lemma addC0 number v upd s : kinf s0 s -> pc (addConstraint0 junk number v upd s) (upd_inf s0).
Proof. intros K. unfold addConstraint0, addConstraint_check. psteps; kdone. Qed.
Lemma addB0 number v upd s : kinf s0 s -> pc (addBound0 junk number v upd s) (upd_inf s0).
Proof. intros K. unfold addBound0, addBound_check. psteps; kdone. Qed.
Ltac known ::= first [apply addC0; kin | apply addB0; kin].
Lemma addX e s : kinf s0 s -> pc (addExchange junk e s) (upd_inf s0).
Proof. intros K. unfold addExchange. psteps; kdone. Qed.
Lemma flipC number s : kinf s0 s -> pc (flipConstraint number s) (upd_inf s0).
Proof. intros K. unfold flipConstraint, p_restore. psteps; kdone. Qed.
Lemma flipB number s : kinf s0 s -> pc (p_flipBound number s) (upd_inf s0).
Proof. intros K. unfold p_flipBound, p_restore. psteps; kdone. Qed.
Ltac known ::= first [apply addX; kin | apply flipC; kin | apply flipB; kin].
Lemma remC_upd number k upd flip e s : kinf s0 s -> pc (removeConstraint_update junk number k upd flip e s) (upd_inf s0).
Proof. intros K. unfold removeConstraint_update, p_save. psteps; kdone. Qed.
Lemma remB_upd number upd flip e s : kinf s0 s -> pc (removeBound_update junk number upd flip e s) (upd_inf s0).
Proof. intros K. unfold removeBound_update, p_save. psteps; kdone. Qed.
Ltac known ::= first [apply remC_upd; kin | apply remB_upd; kin].
Lemma remC0 number upd flip s : kinf s0 s -> pc (removeConstraint0 junk number upd flip s) (upd_inf s0).
Proof. intros K. unfold removeConstraint0, removeConstraint_check. psteps; kdone. Qed.
Lemma remB0 number upd flip s : kinf s0 s -> pc (removeBound0 junk number upd flip s) (upd_inf s0).
Proof. intros K. unfold removeBound0, removeBound_check. psteps; kdone. Qed.

(** ** Factorisation and step direction *)
Lemma cproj s : kinf s0 s -> pc (computeProjectedCholesky s) (upd_inf s0).
Proof.
  intros K. unfold computeProjectedCholesky. cbv zeta. destruct (_ =? 0).
  { eapply pc_bind; [apply computeCholesky_frame|]. intros [r b] (B & S1 & I1 & R1). cbn [pc]. split; cbn [fst snd]; [|exact R1].
    destruct K as ((K1 & K2) & K3). destruct K1 as (B1 & K4). unfold kinf, kstat, kept.
    cbn [p_b set_p_b p_A p_freeA p_sizeT]. repeat split; try (exact (proj1 (same_base_trans _ _ _ B1 B))); try apply K4; try congruence.
    all: pose proof (same_base_trans _ _ _ B1 B) as X; apply X. }
  psteps; repeat match goal with |- context [if ?b <' n0 then _ else _] => destruct (b <' n0) end; kdone.
  all: match goal with H : Brk _ = Brk _ |- _ => inversion H; subst; pleaf | _ => idtac end.
Qed.

Lemma pd_null_inner (s : qp) bCz bBz r xFX A tmp dxz :
  pc (pd_null s bCz bBz r xFX A tmp dxz) (fun c => match c with Brk (rv, _, _) => inner rv | Next _ => True end).
Proof. unfold pd_null. psteps; auto; exact I. Qed.

Lemma pd_round_inner (s : qp) d bCz bBz xFX r st :
  pc (pd_round s d bCz bBz xFX r st) (fun c => match c with Brk (rv, _, _, _) => inner rv | Next _ => True end).
Proof.
  unfold pd_round. destruct st as [[c xFR] yAC]. cbv zeta.
  eapply (pc_bind _ _ (fun u => match u with Brk (rv, _) => inner rv | Next _ => True end)).
  - destruct (0 <? pFR s); [|exact I]. apply pc_any. intros [[[B tmp] dxy]|[[B tmp] dxy]]; [|exact I].
    eapply pc_bind; [apply pd_null_inner|]. intros [[A dxz]|[[rv A] dxz]] R; [|exact R]. psteps; exact I.
  - intros [c'|[rv c']] R; [|exact R]. psteps; exact I.
Qed.

Lemma p_stepDirection_frame d bCz bBz p s : kinf s0 s ->
  pc (p_stepDirection d bCz bBz p s) (fun '(r, _, s') => kinf s0 s' /\ inner r).
Proof.
  intros K. unfold p_stepDirection. do 5 (apply pc_any; intro).
  eapply pc_bind; [eapply (pc_forb (fun _ => True)); [exact I|]; intros; apply pd_round_inner|].
  intros [[[c xFR] yAC]|[[[rv c] xFR] yAC]] R; cbv beta zeta iota.
  - psteps; split; try kin; exact I.
  - psteps; split; try kin; try exact I; exact R.
Qed.

Ltac stepdir := eapply pc_bind; [apply p_stepDirection_frame; kin|intros [[? ?] ?] [? ?]].

Lemma fullLI_frame dg s : kinf s0 s -> pc (fullLI junk dg s) (upd_inf s0).
Proof.
  intros K. unfold fullLI. cbv zeta. apply pc_any. intro. stepdir. psteps; pleaf.
Qed.
Ltac known ::= first [apply fullLI_frame; kin].
Lemma checkC number s : kinf s0 s -> pc (addConstraint_checkLI junk number s) (upd_inf s0).
Proof.
  intros K. unfold addConstraint_checkLI. psteps; pleaf.
Qed.
Lemma checkB number s : kinf s0 s -> pc (addBound_checkLI junk number s) (upd_inf s0).
Proof.
  intros K. unfold addBound_checkLI. psteps; pleaf.
Qed.

(** ensuring linear independence: the flag is raised with one return value only *)
Definition li_ok (x : returnValue * qp) : Prop :=
  kstat s0 (snd x) /\ inner (fst x) /\ (fst x <> RET_ENSURELI_FAILED_NOINDEX -> q_infeasible (p_b (snd x)) = q_infeasible (p_b s0)).
Lemma li_inf x : upd_inf s0 x -> li_ok x.
Proof. intros ((? & ?) & ?). split; [|split]; auto. Qed.
Ltac known ::= first [apply remC0; kin | apply remB0; kin].
Lemma drop_frame number v isB xiB xiC s : kinf s0 s -> pc (dropInfeasibles junk number v isB xiB xiC s) (upd_inf s0).
Proof. intros K. unfold dropInfeasibles. psteps; try pleaf. Qed.
Lemma resolve_frame number slot v isB xiB xiC s : kinf s0 s -> pc (resolveLI junk number slot v isB xiB xiC s) li_ok.
Proof.
  intros K. unfold resolveLI. psteps.
  all: match goal with
       | |- pc (dropInfeasibles _ _ _ _ _ _ _) _ => eapply pc_mono; [apply drop_frame; kin|]; exact li_inf
       | |- li_ok (RET_ENSURELI_FAILED_NOINDEX, _) => split; [|split]; cbn [fst snd]; [kin|exact I|congruence]
       | |- li_ok _ => apply li_inf; pleaf
       end.
Qed.
Ltac known ::= first [apply checkC; kin | apply checkB; kin | apply resolve_frame; kin].
Lemma ensureC number v s : kinf s0 s -> pc (addConstraint_ensureLI junk number v s) li_ok.
Proof. intros K. unfold addConstraint_ensureLI. psteps; apply li_inf; pleaf. Qed.
Lemma ensureB number v s : kinf s0 s -> pc (addBound_ensureLI junk number v s) li_ok.
Proof. intros K. unfold addBound_ensureLI. psteps; apply li_inf; pleaf. Qed.

Lemma p_addC number v upd li s : kinf s0 s -> pc (p_addConstraint junk number v upd li s) (upd_ok s0).
Proof.
  intros K. unfold p_addConstraint. eapply pc_bind with (P := fun c => match c with Some r => inner r | None => True end).
  { unfold addConstraint_check. psteps; try exact I. destruct (p_noUpdate s); exact I. }
  intros [r|] R; [apply upd_inf_ok; pleaf|].
  eapply pc_bind with (P := li_ok).
  { destruct (upd && li); [apply ensureC, K|apply li_inf; pleaf]. }
  intros [r s'] (K' & I' & F). cbn [fst snd] in *. destruct (afterLI r _) eqn:E.
  - cbn [pc]. split; [|split]; cbn [fst snd]; [exact K'| |].
    + destruct r; cbn in E; inversion E; exact I.
    + intros ->. apply F. intros ->. cbn in E. discriminate.
  - eapply pc_mono; [apply addC_upd|intros x; apply upd_inf_ok]. split; [exact K'|]. apply F. intros ->. cbn in E. discriminate.
Qed.
Lemma p_addB number v upd li s : kinf s0 s -> pc (p_addBound junk number v upd li s) (upd_ok s0).
Proof.
  intros K. unfold p_addBound. eapply pc_bind with (P := fun c => match c with Some r => inner r | None => True end).
  { unfold addBound_check. psteps; try exact I. destruct (p_noUpdate s); exact I. }
  intros [r|] R; [apply upd_inf_ok; pleaf|].
  eapply pc_bind with (P := li_ok).
  { destruct (upd && li); [apply ensureB, K|apply li_inf; pleaf]. }
  intros [r s'] (K' & I' & F). cbn [fst snd] in *. destruct (afterLI r _) eqn:E.
  - cbn [pc]. split; [|split]; cbn [fst snd]; [exact K'| |].
    + destruct r; cbn in E; inversion E; exact I.
    + intros ->. apply F. intros ->. cbn in E. discriminate.
  - eapply pc_mono; [apply addB_upd|intros x; apply upd_inf_ok]. split; [exact K'|]. apply F. intros ->. cbn in E. discriminate.
Qed.

Lemma nzc_frame isB rem s : kinf s0 s -> pc (ensureNonzeroCurvature junk isB rem s) (fun '(r, _, s') => kinf s0 s' /\ inner r).
Proof.
  intros K. unfold ensureNonzeroCurvature. cbv zeta. do 4 (apply pc_any; intro). stepdir.
  psteps.
  all: split; [kin|]; first [exact I|assumption].
Qed.
Lemma p_remC number upd flip nz s : kinf s0 s -> pc (p_removeConstraint junk number upd flip nz s) (upd_inf s0).
Proof.
  intros K. unfold p_removeConstraint. eapply pc_bind with (P := fun c => match c with inl r => inner r | inr _ => True end).
  { unfold removeConstraint_check. psteps; try exact I. destruct (_ || _); exact I. }
  intros [r|k] R; [pleaf|].
  eapply pc_bind with (P := fun '(r, _, s') => kinf s0 s' /\ inner r).
  { destruct nz; [apply nzc_frame, K|cbn [pc]; split; [exact K|exact I]]. }
  intros [[r e] s'] [K' I']. destruct (negb _); [pleaf|]. apply remC_upd; kin.
Qed.
Lemma p_remB number upd flip nz s : kinf s0 s -> pc (p_removeBound junk number upd flip nz s) (upd_inf s0).
Proof.
  intros K. unfold p_removeBound. eapply pc_bind with (P := fun c => match c with Some r => inner r | None => True end).
  { unfold removeBound_check. psteps; try exact I. destruct (p_noUpdate _); exact I. }
  intros [r|] R; [pleaf|].
  eapply pc_bind with (P := fun '(r, _, s') => kinf s0 s' /\ inner r).
  { destruct nz; [apply nzc_frame, K|cbn [pc]; split; [exact K|exact I]]. }
  intros [[r e] s'] [K' I']. destruct (negb _); [pleaf|]. apply remB_upd; kin.
Qed.

(** ** One iteration *)
Lemma auxgrad s : kinf s0 s -> pc (p_setupAuxiliaryQPgradient s) (kinf s0).
Proof. intros K. unfold p_setupAuxiliaryQPgradient, on_b, setupAuxiliaryQPgradient. psteps; kin. Qed.
Lemma ramping s : kinf s0 s -> pc (p_performRamping s) (kinf s0).
Proof.
  intros K. unfold p_performRamping. cbv zeta. apply pc_any. intros [[lb ub] y]. apply pc_any. intros [[[[lbA ubA] Al] Au] y'].
  eapply pc_bind; [apply auxgrad; kin|]. intros s' K'. cbn [pc]. kin.
Qed.
Lemma drift s : kinf s0 s -> pc (p_performDriftCorrection s) (kinf s0).
Proof.
  intros K. unfold p_performDriftCorrection. apply pc_any. intros [[lb ub] y]. apply pc_any. intros [[[[lbA ubA] Al] Au] y'].
  apply auxgrad; kin.
Qed.
Lemma perfstep d p s : kinf s0 s -> pc (p_performStep junk d p s) (fun '(_, s') => kinf s0 s').
Proof.
  intros K. unfold p_performStep. apply pc_any. intros [b dAx]. unfold p_applyStep. cbv zeta.
  psteps; kin.
Qed.
Lemma change b s : kinf s0 s -> pc (p_changeActiveSet junk b s) (upd_ok s0).
Proof.
  intros K. unfold p_changeActiveSet. cbv zeta.
  assert (X : forall v e, inner e -> pc (' (r, s1) <- (if bk_isB b then p_addBound junk (bk_idx b) v true true s
      else p_addConstraint junk (bk_idx b) v true true s);;
      Ok (if r =r? SUCCESSFUL_RETURN then SUCCESSFUL_RETURN else if r =r? e then r else RET_ADD_TO_ACTIVESET_FAILED, s1)) (upd_ok s0)).
  { intros v e Ie. eapply pc_bind with (P := upd_ok s0); [destruct (bk_isB b); [apply p_addB, K|apply p_addC, K]|].
    intros [r s'] (K' & I' & F). cbn [fst snd pc] in *. split; [|split]; cbn [fst snd]; [exact K'| |].
    - destruct (r =r? SUCCESSFUL_RETURN); [exact I|]. destruct (r =r? e); [exact I'|exact I].
    - destruct (r =r? SUCCESSFUL_RETURN) eqn:E1; [intros _; apply F, rv_eqb_eq, E1|]. destruct (r =r? e); [exact F|discriminate]. }
  assert (Y : inner (if bk_isB b then RET_ADDBOUND_FAILED_INFEASIBILITY else RET_ADDCONSTRAINT_FAILED_INFEASIBILITY)) by (destruct (bk_isB b); exact I).
  destruct (bk_st b); try (apply X, Y); try (apply upd_inf_ok; pleaf; fail).
  eapply pc_bind with (P := upd_inf s0); [destruct (bk_isB b); [apply p_remB, K|apply p_remC, K]|].
  intros [r s'] [K' I']. cbn [fst snd] in *. destruct (negb _); [apply upd_inf_ok; pleaf|]. apply pc_any. intro. apply upd_inf_ok; pleaf.
Qed.
Lemma subjtype lbn ubn s : kinf s0 s -> pc (on_b (setupSubjectToType lbn ubn) s) (kinf s0).
Proof. intros K. unfold on_b, setupSubjectToType. psteps; kin. Qed.

Lemma activities lbn ubn s : kinf s0 s -> pc (updateActivitiesForHotstart junk lbn ubn s) (upd_ok s0).
Proof.
  intros K. unfold updateActivitiesForHotstart. cbv zeta.
  eapply pc_bind; [apply subjtype, K|]. clear s K. intros s K.
  assert (F : forall (c : bool) v i s, kinf s0 s -> pc (if c then
      w <- st_getStatus (p_bounds s) i;;
      (if is_sts w v then
        ' (r, s3) <- p_removeBound junk i true false (o_enableNZCTests (p_opts s)) s;;
        (if negb (r =r? SUCCESSFUL_RETURN) then Ok (r, s3) else
         gi <- rd (q_g (p_b s3)) i;; yi <- rd (q_y (p_b s3)) i;; g <- wr (q_g (p_b s3)) i (gi -' yi);; y <- wr (q_y (p_b s3)) i n0;;
         Ok (SUCCESSFUL_RETURN, up_b (fun b => set_q_y y (set_q_g g b)) s3))
       else Ok (SUCCESSFUL_RETURN, s)) else Ok (SUCCESSFUL_RETURN, s)) (upd_inf s0)).
  { clear s K. intros c v i s K. destruct c; [|pleaf]. apply pc_any. intro w. destruct (is_sts w v); [|pleaf].
    eapply pc_bind; [apply p_remB, K|]. intros [r s'] [K' I']. cbn [fst snd] in *. destruct (negb _); [pleaf|]. psteps. pleaf. }
  eapply pc_bind; [apply (pc_forb (kinf s0) (upd_inf s0)); [exact K|]|].
  - clear s K. intros i s K. apply pc_any. intro ln.
    eapply pc_bind; [apply F, K|]. intros [r1 s1] [K1 I1]. cbn [fst snd] in *. destruct (negb _); [pleaf|].
    apply pc_any. intro un. eapply pc_bind; [apply F, K1|]. intros [r2 s2] [K2 I2]. cbn [fst snd] in *.
    destruct (negb _); [cbn [pc]; split; [kin|exact I2]|].
    clear F. psteps; kin.
  - intros [s'|[r s']] C; [|apply upd_inf_ok, C]. clear F s K.
    eapply pc_bind; [apply (pc_forb (kinf s0) (upd_ok s0)); [exact C|]|].
    + intros i s K. apply pc_any. intro t. destruct (negb _); [exact K|]. do 3 (apply pc_any; intro). apply pc_any; intro w.
      destruct (negb _); [cbn [pc]; kin|]. eapply pc_bind; [apply checkB; kin|]. intros [r s1] [K1 I1]. cbn [fst snd] in *.
      destruct (negb _); [cbn [pc]; kin|].
      eapply pc_bind; [apply p_addB, K1|]. intros [r2 s2] (K2 & I2 & F2). cbn [fst snd] in *.
      destruct (r2 =r? SUCCESSFUL_RETURN) eqn:E; cbn [negb pc].
      * split; [exact K2|]. apply F2, rv_eqb_eq, E.
      * split; [|split]; auto.
    + intros [s2|e] C2; cbn [pc]; [apply upd_inf_ok; pleaf|exact C2].
Qed.
End Start.
End Frame.
