(** What the solver never reads (used by C45): the counter of hotstarts, and the
    working sets a Flipper holds before it is set.  Two objects that differ only
    in these behave alike. *)
From Verif Require Import Base Types Num Options Indexlist Loops SafeLib SubjectTo Flipper Matrices LinAlg QProblemB.
Local Open Scope Z_scope.

(** two runs with related results *)
Definition rr {A B} (P : A -> B -> Prop) (m1 : res A) (m2 : res B) : Prop :=
  match m1, m2 with Ok a, Ok b => P a b | UB, UB => True | Hang, Hang => True | _, _ => False end.
Lemma rr_bind {A B C D} (P : A -> B -> Prop) (Q : C -> D -> Prop) m1 m2 k1 k2 :
  rr P m1 m2 -> (forall a b, P a b -> rr Q (k1 a) (k2 b)) -> rr Q (bind m1 k1) (bind m2 k2).
Proof. destruct m1, m2; cbn; auto; contradiction. Qed.
Lemma rr_eq {A} (m1 m2 : res A) : m1 = m2 -> rr eq m1 m2.
Proof. intros <-. now destruct m1. Qed.
Lemma rr_mono {A B} (P Q : A -> B -> Prop) m1 m2 : rr P m1 m2 -> (forall a b, P a b -> Q a b) -> rr Q m1 m2.
Proof. destruct m1, m2; cbn; auto. Qed.
Lemma rr_for {S T} (P : S -> T -> Prop) lo hi b1 b2 s t : P s t -> (forall i s t, P s t -> rr P (b1 i s) (b2 i t)) -> rr P (for_up lo hi b1 s) (for_up lo hi b2 t).
Proof.
  intros H0 HS. unfold for_up. generalize (Z.to_nat (hi - lo)) as m. intros m. revert lo s t H0. induction m as [|m IH]; intros; cbn; [auto|].
  eapply rr_bind; [apply HS; exact H0|]. intros; apply IH; auto.
Qed.
Definition rctl {S T E F} (P : S -> T -> Prop) (Q : E -> F -> Prop) (a : ctl S E) (b : ctl T F) : Prop :=
  match a, b with Next s, Next t => P s t | Brk e, Brk f => Q e f | _, _ => False end.
Lemma rr_forb {S T E F} (P : S -> T -> Prop) (Q : E -> F -> Prop) lo hi b1 b2 s t : P s t ->
  (forall i s t, P s t -> rr (rctl P Q) (b1 i s) (b2 i t)) -> rr (rctl P Q) (forb_up lo hi b1 s) (forb_up lo hi b2 t).
Proof.
  intros H0 HS. unfold forb_up. generalize (Z.to_nat (hi - lo)) as m. intros m. revert lo s t H0. induction m as [|m IH]; intros; cbn; [auto|].
  eapply rr_bind; [apply HS; exact H0|]. intros [a|a] [b|b]; cbn; try contradiction; auto.
Qed.

Section Again.
Context {N : Num}.
Notation arr := (list N).
Notation qpb := (qpb N).
Variable junk : Z -> arr.
Variable cpu : Z -> bool.

Definition feq (f f' : flipper N) : Prop := fl_nV f = fl_nV f' /\ fl_nC f = fl_nC f' /\ fl_R f = fl_R f' /\ fl_Q f = fl_Q f' /\ fl_T f = fl_T f'.
Definition up (c : Z) (f : flipper N) (s : qpb) : qpb := set_q_count c (set_q_flip f s).
Definition alike (s t : qpb) : Prop := exists c f, t = up c f s /\ feq f (q_flip s).
Definition alike2 {A} (p q : A * qpb) : Prop := fst p = fst q /\ alike (snd p) (snd q).

Lemma al_ok {A} (a : A) c f s : feq f (q_flip s) -> alike2 (a, s) (a, up c f s).
Proof. intros H. split; [reflexivity|]. exists c, f. auto. Qed.

Ltac same := eapply rr_bind; [apply rr_eq; reflexivity|cbv beta; intros ? ? <-].
Ltac cond := match goal with |- rr _ (if ?b then _ else _) (if ?b' then _ else _) => change b' with b; destruct b end.
Ltac pair1 := match goal with |- rr _ (let '(_, _) := ?p in _) _ => destruct p | |- rr _ (match ?p with (_, _) => _ end) _ => destruct p end.
Ltac fin := match goal with |- rr alike2 (Ok (?a, ?s)) (Ok (_, _)) => cbn [rr]; split; [reflexivity|eexists _, _; split; [reflexivity|eassumption]]
  | |- rr alike (Ok _) (Ok _) => cbn [rr]; eexists _, _; split; [reflexivity|eassumption] end.
Ltac go := repeat first [fin | same | cond | pair1].
Ltac use L := eapply rr_bind; [apply L; eassumption|].

Section One.
Variables (c : Z) (f : flipper N) (s : qpb).
Hypothesis F : feq f (q_flip s).
Lemma setupSubjectToType_al lb ub : rr alike (setupSubjectToType lb ub s) (setupSubjectToType lb ub (up c f s)).
Proof. unfold setupSubjectToType. go. Qed.
Lemma regulariseHessian_al : rr alike2 (regulariseHessian s) (regulariseHessian (up c f s)).
Proof. unfold regulariseHessian. go. Qed.
Lemma computeCholesky_al : rr alike2 (computeCholesky s) (computeCholesky (up c f s)).
Proof. unfold computeCholesky. same. change (q_htype (up c f s)) with (q_htype s). destruct (q_htype s); go. Qed.
End One.
Ltac al2 := let r := fresh "r" in let r' := fresh in let s := fresh "s" in let s' := fresh in let c := fresh "c" in let f := fresh "f" in let F := fresh "F" in
  let E := fresh in let E' := fresh in
  intros [r s] [r' s'] (E & c & f & E' & F); cbn [fst snd] in E, E', F; subst r' s'.
Ltac al1 := let s := fresh "s" in let s' := fresh in let c := fresh "c" in let f := fresh "f" in let F := fresh "F" in intros s s' (c & f & -> & F).
Ltac use2 L := eapply rr_bind with (P := alike2); [eapply L; eassumption|al2].
Ltac use1 L := eapply rr_bind with (P := alike); [eapply L; eassumption|al1].

Lemma setupInitialCholesky_al c f s : feq f (q_flip s) -> rr alike2 (setupInitialCholesky s) (setupInitialCholesky (up c f s)).
Proof.
  intros F. unfold setupInitialCholesky. same. eapply rr_bind with (P := alike2).
  { cond; [now apply regulariseHessian_al|fin]. }
  al2. cond; [fin|]. use2 computeCholesky_al. cbv zeta. cond; [|go]. use2 regulariseHessian_al. cond; [fin|]. use2 computeCholesky_al. go.
Qed.
Lemma setupAuxiliaryQPgradient_al c f s : feq f (q_flip s) -> rr alike (setupAuxiliaryQPgradient s) (setupAuxiliaryQPgradient (up c f s)).
Proof. intros F. unfold setupAuxiliaryQPgradient. go. Qed.
Lemma performRamping_al c f s : feq f (q_flip s) -> rr alike (performRamping s) (performRamping (up c f s)).
Proof. intros F. unfold performRamping. cbv zeta. same. destruct a as [[lb ub] y]. eapply rr_bind with (P := alike); [apply (setupAuxiliaryQPgradient_al c f (set_q_y y (set_q_ub ub (set_q_lb lb s)))); exact F|al1]. go. Qed.
Lemma setupAuxiliaryQPbounds_al c f s relax : feq f (q_flip s) -> rr alike2 (setupAuxiliaryQPbounds relax s) (setupAuxiliaryQPbounds relax (up c f s)).
Proof. intros F. unfold setupAuxiliaryQPbounds. cbv zeta. same. destruct a as [[lb ub]|[lb ub]]; fin. Qed.
Lemma performDriftCorrection_al c f s : feq f (q_flip s) -> rr alike (performDriftCorrection s) (performDriftCorrection (up c f s)).
Proof. intros F. unfold performDriftCorrection. same. destruct a as [[lb ub] y]. apply (setupAuxiliaryQPgradient_al c f (set_q_y y (set_q_ub ub (set_q_lb lb s)))); exact F. Qed.
Lemma addBound_al c f s i v u : feq f (q_flip s) -> rr alike2 (addBound i v u s) (addBound i v u (up c f s)).
Proof.
  intros F. unfold addBound. cond; [fin|]. cbv zeta. cond; [go|]. eapply rr_bind with (P := alike); [cond; go|al1]. go.
Qed.
Lemma flipBound_al c f s i : feq f (q_flip s) -> fl_bounds f = fl_bounds (q_flip s) ->
  rr (fun p q => fst p = fst q /\ snd q = up c f (snd p) /\ q_flip (snd p) = q_flip s) (flipBound i s) (flipBound i (up c f s)).
Proof.
  intros F B. unfold flipBound. eapply rr_bind with (P := eq).
  { apply rr_eq. unfold fl_get. change (q_flip (up c f s)) with f. unfold fl_dimRQ, fl_getDimT. destruct F as (F1 & F2 & F3 & F4 & F5). rewrite F1, F2, F3, F4, F5, B. reflexivity. }
  intros [[[[b R] ?] ?] ?] ? <-. destruct b as [b|], R as [R|]; try exact I. same. pair1. cbv zeta. same. destruct a; repeat same; cbn; auto.
Qed.
Lemma flip_weak c f s i : feq f (q_flip s) -> fl_bounds f = fl_bounds (q_flip s) -> rr alike2 (flipBound i s) (flipBound i (up c f s)).
Proof.
  intros F B. eapply rr_mono; [now apply flipBound_al|]. intros [a s1] [b t] (X & Y & Z). cbn in *. subst. apply al_ok. now rewrite Z.
Qed.
Lemma removeBound_al c f s i u : feq f (q_flip s) -> rr alike2 (removeBound junk i u s) (removeBound junk i u (up c f s)).
Proof.
  intros F. unfold removeBound. cbv zeta. cond; [fin|]. change (o_enableFlippingBounds (q_opts (up c f s))) with (o_enableFlippingBounds (q_opts s)).
  destruct (o_enableFlippingBounds (q_opts s)) eqn:FB; cbn iota.
  - eapply rr_bind with (P := fun s t => exists c f, t = up c f s /\ feq f (q_flip s) /\ fl_bounds f = fl_bounds (q_flip s)).
    { eapply rr_bind with (P := fun a b => feq b a /\ fl_bounds b = fl_bounds a).
      - change (q_flip (up c f s)) with f. unfold fl_set. destruct F as (F1 & F2 & F3 & F4 & F5). cbv zeta. unfold fl_dimRQ, fl_getDimT. rewrite F1, F2, F3, F4, F5.
        same. same. same. cbn. split; [repeat split|reflexivity].
      - intros a b (X & Y). cbn. exists c, b. auto. }
    clear F. intros s1 ? (c1 & f1 & -> & F & B). same. pair1. cond; [fin|]. cond; [fin|].
    assert (T : forall s2, q_flip s2 = q_flip s1 -> rr alike2 (if is_hst (q_htype s2) HST_ZERO && true then flipBound i s2 else Ok (SUCCESSFUL_RETURN, s2))
       (if is_hst (q_htype (up c1 f1 s2)) HST_ZERO && true then flipBound i (up c1 f1 s2) else Ok (SUCCESSFUL_RETURN, up c1 f1 s2))).
    { intros s2 E2. cond; [apply flip_weak; rewrite E2; auto|]. cbn. apply al_ok. rewrite E2. auto. }
    cond; [|match goal with |- rr _ (if is_hst (q_htype ?x) _ && _ then _ else _) _ => apply (T x); reflexivity end].
    same. same. same. same. pair1. cond; [fin|]. same. same. cond.
    + same. match goal with |- rr _ (if is_hst (q_htype ?x) _ && _ then _ else _) _ => apply (T x); reflexivity end.
    + eapply rr_bind; [match goal with |- rr _ (flipBound i ?x) _ => apply (flipBound_al c1 f1 x); assumption end|].
      intros [r5 s5] [r6 s6] (X & Y & Z). cbn [fst snd] in X, Y, Z. subst r6 s6. cond; [cbn; apply al_ok; rewrite Z; exact F|]. apply (T s5). exact Z.
  - cbn [bind]. same. pair1. cond; [fin|]. cond; [fin|]. rewrite ?andb_false_r. cond; [|fin]. same. same. same. same. pair1. cond; [fin|]. same. same. cond; [|fin]. same. rewrite ?andb_false_r. fin.
Qed.

Definition actl (a b : ctl qpb qpb) : Prop := rctl alike alike a b.
Lemma setupAuxiliaryWorkingSet_al c f s aux fr : feq f (q_flip s) -> rr alike2 (setupAuxiliaryWorkingSet junk aux fr s) (setupAuxiliaryWorkingSet junk aux fr (up c f s)).
Proof.
  intros F. unfold setupAuxiliaryWorkingSet. destruct aux as [aux|]; [|fin]. same. destruct a as [[]|[]]; [|fin].
  eapply rr_bind with (P := actl).
  - destruct fr; [cbn; exists c, f; auto|]. change (nV (up c f s)) with (nV s). apply rr_forb; [exists c, f; auto|]. clear c f F s. intros i s t (c & f & -> & F). cbv zeta.
    assert (D : forall st s c f, feq f (q_flip s) -> rr (rctl alike alike) 
       (a <- st_getStatus (q_bounds s) i ;; b <- st_getStatus aux i ;;
        if is_sts a st && negb (is_sts b st) then '(r, s) <- removeBound junk i (negb false) s ;; if r =r? SUCCESSFUL_RETURN then Ok (Next s) else Ok (Brk s) else Ok (Next s))
       (a <- st_getStatus (q_bounds (up c f s)) i ;; b <- st_getStatus aux i ;;
        if is_sts a st && negb (is_sts b st) then '(r, s) <- removeBound junk i (negb false) (up c f s) ;; if r =r? SUCCESSFUL_RETURN then Ok (Next s) else Ok (Brk s) else Ok (Next (up c f s)))).
    { clear. intros st s c f F. same. same. cond; [|cbn; exists c, f; auto]. use2 removeBound_al. cond; cbn; eexists _, _; eauto. }
    eapply rr_bind; [apply D; exact F|]. intros [s1|s1] [t1|t1]; cbn [rctl]; try contradiction; [|cbn; auto]. intros (c1 & f1 & -> & F1). apply D. exact F1.
  - clear c f F s. intros [s|s] [t|t]; cbn [actl rctl]; try contradiction; intros (c & f & -> & F); [|fin]. eapply rr_bind with (P := actl).
    + change (nV (up c f s)) with (nV s). apply rr_forb; [exists c, f; auto|]. clear c f F s. intros i s t (c & f & -> & F). same. same. cond; [|cbn; exists c, f; auto].
      use2 addBound_al. cond; cbn; eexists _, _; eauto.
    + intros [s1|s1] [t1|t1]; cbn [actl rctl]; try contradiction; intros (c1 & f1 & -> & F1); fin.
Qed.
Lemma setupAuxiliaryQP_al c f s gb : feq f (q_flip s) -> rr alike2 (setupAuxiliaryQP junk gb s) (setupAuxiliaryQP junk gb (up c f s)).
Proof.
  intros F. unfold setupAuxiliaryQP. cbv zeta. same. eapply rr_bind with (P := alike2).
  - cond.
    + eapply rr_bind with (P := alike); [match goal with |- rr _ (setupSubjectToType _ _ ?x) _ => apply (setupSubjectToType_al c f x) end; exact F|al1]. same. pair1. cond; [fin|].
      eapply rr_bind with (P := alike2); [match goal with |- rr _ (setupAuxiliaryWorkingSet _ _ _ ?x) _ => eapply (setupAuxiliaryWorkingSet_al _ _ x) end; eassumption|al2]. use2 computeCholesky_al. fin.
    + eapply rr_bind with (P := alike2); [match goal with |- rr _ (setupAuxiliaryWorkingSet _ _ _ ?x) _ => eapply (setupAuxiliaryWorkingSet_al c f x) end; eassumption|al2]. fin.
  - al2. cond; [fin|]. same. eapply rr_bind with (P := alike); [match goal with |- rr _ (setupAuxiliaryQPgradient ?x) _ => eapply (setupAuxiliaryQPgradient_al _ _ x) end; eassumption|al1].
    use2 setupAuxiliaryQPbounds_al. fin.
Qed.
Lemma determineStepDirection_al c f s d z : feq f (q_flip s) -> rr alike2 (determineStepDirection d z s) (determineStepDirection d z (up c f s)).
Proof. intros F. unfold determineStepDirection. same. same. same. same. destruct a2 as [[tmp xFR]|[[rv tmp] xFR]]; cbv zeta; cond; try fin; same; fin. Qed.
Lemma applyStep_al c f s d : feq f (q_flip s) -> rr alike (applyStep d s) (applyStep d (up c f s)).
Proof. intros F. unfold applyStep. cbv zeta. cond; [|fin]. go. Qed.
Lemma performStep_al c f s d : feq f (q_flip s) -> rr alike2 (performStep junk d s) (performStep junk d (up c f s)).
Proof. intros F. unfold performStep. same. destruct a as [[t bi] bs]. eapply rr_bind with (P := alike); [match goal with |- rr _ (applyStep _ ?x) _ => apply (applyStep_al c f x) end; exact F|al1]. fin. Qed.
Lemma changeActiveSet_al c f s bi bs : feq f (q_flip s) -> rr alike2 (changeActiveSet junk bi bs s) (changeActiveSet junk bi bs (up c f s)).
Proof.
  intros F. unfold changeActiveSet. destruct bs; try fin; try (use2 addBound_al; fin). use2 removeBound_al. cond; [fin|]. same. fin.
Qed.
Lemma afterChange_al c f s it : feq f (q_flip s) -> rr alike2 (afterChange it s) (afterChange it (up c f s)).
Proof.
  intros F. unfold afterChange. cbv zeta. eapply rr_bind with (P := alike2); [cond; [now apply computeCholesky_al|fin]|al2]. cond; [fin|].
  eapply rr_bind with (P := alike); [cond; [now apply performRamping_al|cond; [now apply performDriftCorrection_al|fin]]|al1]. fin.
Qed.
Definition dctl (a b : ctl (qpb * deltas N) (returnValue * Z * qpb)) : Prop :=
  rctl (fun p q => alike (fst p) (fst q) /\ snd p = snd q) alike2 a b.
Lemma al_split {A} (a : A) c f s t : t = up c f s -> feq f (q_flip s) -> alike2 (a, s) (a, t).
Proof. intros -> H. now apply al_ok. Qed.
Lemma solveIter_al c f s d gn lbn ubn nWSR p it : feq f (q_flip s) -> rr dctl (solveIter junk cpu gn lbn ubn nWSR p it (s, d)) (solveIter junk cpu gn lbn ubn nWSR p it (up c f s, d)).
Proof.
  intros F. unfold solveIter, cpuExceeded. destruct (it - p <=? 0); cbn iota;
  [|cond; [cbn; apply (al_split _ c f (set_q_clk (q_clk s + 1) s)); [reflexivity|exact F]|]].
  all: cbv zeta; same; destruct a as [d1 isZ].
  all: eapply rr_bind with (P := alike2); [match goal with |- rr _ (determineStepDirection _ _ ?x) _ => apply (determineStepDirection_al c f x) end; exact F|].
  all: intros [[r s1] ?] [[? ?] ?] (E & c1 & f1 & E' & F1); cbn [fst snd] in E, E', F1; injection E as <- <-; subst.
  all: cond; [cbn; apply al_ok; exact F1|].
  all: eapply rr_bind with (P := alike2); [apply performStep_al; exact F1|].
  all: clear F1; intros [[bi bs] s2] [[? ?] ?] (E & c2 & f2 & E' & F2); cbn [fst snd] in E, E', F2; injection E as <- <-; subst.
  all: same; cond; [cbn; split; [reflexivity|eexists _, _; split; [reflexivity|exact F2]]|].
  all: use2 changeActiveSet_al; cond; [cond; [cbn; split; [reflexivity|eexists _, _; split; [reflexivity|assumption]]|cond; cbn; (split; [reflexivity|eexists _, _; split; [reflexivity|assumption]])]|].
  all: eapply rr_bind with (P := alike2); [match goal with |- rr _ (afterChange _ ?x) _ => eapply (afterChange_al _ _ x); eassumption end|al2].
  all: cond; cbn; (split; [first [reflexivity | eexists _, _; split; [reflexivity|assumption]]|first [reflexivity | eexists _, _; split; [reflexivity|assumption]]]).
Qed.
Lemma solveQP_al c f s gn lbn ubn nWSR p : feq f (q_flip s) -> rr alike2 (solveQP junk cpu gn lbn ubn nWSR p s) (solveQP junk cpu gn lbn ubn nWSR p (up c f s)).
Proof.
  intros F. unfold solveQP. change (q_status (up c f s)) with (q_status s).
  assert (M : rr alike2
      (s <- setupSubjectToType lbn ubn s ;; let s := set_q_unbounded false (set_q_infeasible false s) in
       c <- forb_up p nWSR (solveIter junk cpu gn lbn ubn nWSR p) (s, freshDeltas junk (nV s)) ;;
       Ok (match c with Brk e => e | Next (s, _) => (RET_MAX_NWSR_REACHED, nWSR, s) end))
      (s <- setupSubjectToType lbn ubn (up c f s) ;; let s := set_q_unbounded false (set_q_infeasible false s) in
       c <- forb_up p nWSR (solveIter junk cpu gn lbn ubn nWSR p) (s, freshDeltas junk (nV s)) ;;
       Ok (match c with Brk e => e | Next (s, _) => (RET_MAX_NWSR_REACHED, nWSR, s) end))).
  { use1 setupSubjectToType_al. cbv zeta. eapply rr_bind with (P := dctl).
    - apply rr_forb; [split; [eexists _, _; split; [reflexivity|assumption]|reflexivity]|]. clear. intros i [s d] [t e] ((c & f & E & F) & E'). cbn [fst snd] in *. subst. now apply solveIter_al.
    - intros [[s1 d1]|[[r1 k1] s1]] [[t1 e1]|[[r2 k2] t1]]; cbn; try contradiction.
      + intros ((c2 & f2 & E & F2) & _). cbn [fst snd] in E, F2. subst. now apply al_ok.
      + auto. }
  destruct (q_status s); try fin; exact M.
Qed.
Ltac al3 := let r := fresh "r" in let k := fresh "k" in let r' := fresh in let s := fresh "s" in let s' := fresh in let c := fresh "c" in let f := fresh "f" in let F := fresh "F" in
  let E := fresh in let E' := fresh in
  intros [[r k] s] [[r' ?] s'] (E & c & f & E' & F); cbn [fst snd] in E, E', F; injection E as <- <-; subst s'.
Lemma solveRegularisedQP_al c f s gn lbn ubn nWSR p : feq f (q_flip s) -> rr alike2 (solveRegularisedQP junk cpu gn lbn ubn nWSR p s) (solveRegularisedQP junk cpu gn lbn ubn nWSR p (up c f s)).
Proof.
  intros F. unfold solveRegularisedQP. cond; [now apply solveQP_al|]. eapply rr_bind with (P := alike2); [now apply solveQP_al|al3]. cond; [fin|].
  eapply rr_bind with (P := rctl (fun p q : Z * qpb * arr => fst (fst p) = fst (fst q) /\ snd p = snd q /\ alike (snd (fst p)) (snd (fst q))) alike2).
  - change (o_numRegularisationSteps (q_opts (up c0 f0 s0))) with (o_numRegularisationSteps (q_opts s0)). apply rr_forb; [split; [reflexivity|split; [reflexivity|eexists _, _; split; [reflexivity|assumption]]]|].
    clear - cpu. intros _ [[k s] g] [[k' t] g'] (E1 & E2 & c & f & E3 & F). cbn [fst snd] in E1, E2, E3, F. subst. same.
    eapply rr_bind with (P := alike2); [now apply solveQP_al|al3]. cond; cbn; [now apply al_ok|]. split; [reflexivity|]. split; [reflexivity|]. eexists _, _. eauto.
  - intros [[[k1 s1] g1]|[[r1 k1] s1]] [[[k2 t1] g2]|[[r2 k2] t1]]; cbn [rctl]; try contradiction.
    + intros (E1 & E2 & c2 & f2 & E3 & F2). cbn [fst snd] in E1, E2, E3, F2. subst. same. fin.
    + intros H. exact H.
Qed.
Lemma farLoop_al fuel gn lbn ubn nWSR : forall c f s p far lf uf, feq f (q_flip s) -> rr alike2 (farLoop junk cpu fuel gn lbn ubn nWSR p far lf uf s) (farLoop junk cpu fuel gn lbn ubn nWSR p far lf uf (up c f s)).
Proof.
  induction fuel as [|m IH]; intros c f s p far lf uf F; cbn [farLoop]; [exact I|]. eapply rr_bind with (P := alike2); [now apply solveRegularisedQP_al|al3]. cbv zeta.
  cond; [cond; [fin|]|cond; [|fin]].
  - same. destruct a as [l u]. match goal with |- rr _ (farLoop _ _ _ _ _ _ _ _ _ _ _ ?x) _ => apply (IH c0 f0 x); assumption end.
  - same. cond; [fin|]. cond; [fin|]. same. destruct a0 as [l u]. match goal with |- rr _ (farLoop _ _ _ _ _ _ _ _ _ _ _ ?x) _ => apply (IH c0 f0 x); assumption end.
Qed.
Theorem hotstart_al fuel c f s gn lbn ubn nWSR guess : feq f (q_flip s) -> rr alike2 (hotstart junk cpu fuel gn lbn ubn nWSR guess s) (hotstart junk cpu fuel gn lbn ubn nWSR guess (up c f s)).
Proof.
  intros F. unfold hotstart. cond; [fin|]. eapply rr_bind with (P := alike2).
  { destruct guess as [gb|]; [|fin]. use2 setupAuxiliaryQP_al. cond; fin. }
  al2. cond; [fin|]. same. cond; [fin|]. cbv zeta. eapply rr_bind with (P := alike2).
  { cond; [cbn; split; [reflexivity|]; exists (q_count (up c0 f0 s0) + 1), f0; split; [reflexivity|assumption]|].
    match goal with |- rr _ (setupInitialCholesky ?x) _ => apply (setupInitialCholesky_al (q_count (up c0 f0 s0) + 1) f0 x); assumption end. }
  al2. cond; [fin|]. cond; [now apply solveRegularisedQP_al|]. same. same. destruct a1 as [l u]. now apply farLoop_al.
Qed.
End Again.
