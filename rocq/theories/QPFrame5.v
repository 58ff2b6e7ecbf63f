(** What a change of the working set leaves alone besides the data: the flags
    that say whether there are limits at all, the status of the QP and whether
    the Hessian matrix is an ordinary one.  For every arithmetic. *)
From Verif Require Import Base Types Num Options Indexlist IndexlistProofs SafeLib SubjectTo SubjectToProofs Flipper Matrices LinAlg QProblemB QProblem QProblem2 QProblem3 QProblem4 QProblem5 QPFrame QPFrame2 QPFrame3 QPFrame4.
Local Open Scope Z_scope.

Definition same_fl (b b' : subjectTo) : Prop := st_noLower b' = st_noLower b /\ st_noUpper b' = st_noUpper b.
Lemma fl_refl b : same_fl b b.
Proof. split; reflexivity. Qed.
Lemma fl_trans a b c : same_fl a b -> same_fl b c -> same_fl a c.
Proof. unfold same_fl. intuition congruence. Qed.
Lemma fl_list b w l : same_fl b (st_set_list b w l).
Proof. destruct w; split; reflexivity. Qed.
Lemma fl_add b w i v : pc (st_addIndex b w i v) (fun x => same_fl b (snd x)).
Proof.
  unfold st_addIndex. destruct (_ =? _); [apply fl_refl|]. apply pc_any. intros old. destruct (sts_eq_dec _ _); [apply fl_refl|]. apply pc_any. intros stat. cbv zeta.
  apply pc_any. intros [r l]. destruct (_ =r? _); cbn [pc snd]; destruct w; split; reflexivity.
Qed.
Lemma fl_rem b w i : pc (st_removeIndex b w i) (fun x => same_fl b (snd x)).
Proof.
  unfold st_removeIndex. destruct (_ =? _); [apply fl_refl|]. apply pc_any. intros stat. cbv zeta. apply pc_any. intros [r l]. destruct (_ =r? _); cbn [pc snd]; destruct w; split; reflexivity.
Qed.
Lemma fl_activate b i v : pc (st_activate b i v) (fun x => same_fl b (snd x)).
Proof.
  unfold st_activate. destruct (negb _); [apply fl_refl|]. eapply pc_bind; [apply fl_rem|]. intros [r s1] E. cbn [snd] in E. destruct (negb _); [exact E|].
  eapply pc_bind; [apply fl_add|]. intros [r2 s2] E2. cbn [snd] in E2. pose proof (fl_trans _ _ _ E E2). destruct (negb _); assumption.
Qed.
Lemma fl_deactivate b i : pc (st_deactivate b i) (fun x => same_fl b (snd x)).
Proof.
  unfold st_deactivate. destruct (negb _); [apply fl_refl|]. eapply pc_bind; [apply fl_rem|]. intros [r s1] E. cbn [snd] in E. destruct (negb _); [exact E|].
  eapply pc_bind; [apply fl_add|]. intros [r2 s2] E2. cbn [snd] in E2. pose proof (fl_trans _ _ _ E E2). destruct (negb _); assumption.
Qed.
Lemma fl_swap b i j : pc (st_swapFree b i j) (fun x => same_fl b (snd x)).
Proof.
  assert (R0 : forall r : returnValue, pc (Ok (r, b)) (fun x => same_fl b (snd x))) by (intros r; apply fl_refl).
  unfold st_swapFree, st_swapIndex. destruct (_ || _); [apply R0|]. destruct (_ =? _); [apply R0|]. apply pc_any. intro. apply pc_any. intro.
  destruct (sts_eq_dec _ _); [|apply R0]. destruct (_ =? _); [apply R0|]. apply pc_any. intros [r l]. destruct (_ =r? _); repeat split.
Qed.

Section F.
Context {N : Num}.
Notation arr := (list N).
Notation qp := (qp N).
Variable junk : Z -> arr.

Definition fr (s s' : qp) : Prop :=
  same_fl (p_bounds s) (p_bounds s') /\ same_fl (p_cons s) (p_cons s') /\ q_status (p_b s') = q_status (p_b s) /\ (plainH (p_b s) = true -> plainH (p_b s') = true).
Lemma fr_refl s : fr s s.
Proof. repeat split; auto. Qed.
Lemma fr_bounds s0 s b : fr s0 s -> same_fl (p_bounds s) b -> fr s0 (up_b (set_q_bounds b) s).
Proof. intros (A & B & C) E. split; [exact (fl_trans _ _ _ A E)|]. split; assumption. Qed.
Lemma fr_cons s0 s c : fr s0 s -> same_fl (p_cons s) c -> fr s0 (set_p_cons c s).
Proof. intros (A & B & C) E. split; [exact A|]. split; [exact (fl_trans _ _ _ B E)|exact C]. Qed.
Lemma fr_semidef s0 s : fr s0 s -> fr s0 (up_b (set_q_htype HST_SEMIDEF) s).
Proof. intros (A & B & C & D). split; [exact A|]. split; [exact B|]. split; [exact C|]. intros _. reflexivity. Qed.
Ltac fk := cbn [pc fst snd]; first [exact I | match goal with
  | H : fr _ _ |- fr _ _ => exact H
  | H : fr ?a ?b |- fr _ _ => exact (fr_semidef a b H)
  | H : fr ?a ?b, E : same_fl _ _ |- fr _ _ => first [exact (fr_bounds a b _ H E) | exact (fr_cons a b _ H E)]
  | H : fr ?a ?b, E : same_fl _ _ |- fr _ _ => first [exact (fr_bounds a _ _ (fr_semidef a b H) E)]
  end].
Ltac fstep :=
  cbv beta zeta;
  match goal with
  | |- pc (Ok _) _ => fail 1
  | |- pc UB _ => exact I
  | |- pc Hang _ => exact I
  | |- pc (bind UB _) _ => exact I
  | |- pc (bind (bind _ _) _) _ => apply pc_assoc
  | |- pc (bind (Ok _) _) _ => cbn [bind]
  | |- pc (bind (st_deactivate _ _) _) _ => eapply pc_bind; [apply fl_deactivate|]; cbv beta; intros [? ?] ?; cbn [snd] in *
  | |- pc (bind (storeRho _ _ _ false _ _ _) _) _ => eapply pc_bind; [apply storeRho_noflip|]; cbv beta; intros [?| | |] ?; [|contradiction| |]
  | |- pc (bind (if ?b then _ else _) _) _ => destruct b eqn:?
  | |- pc (bind (match ?b with _ => _ end) _) _ => destruct b eqn:?
  | |- pc (if ?b then _ else _) _ => destruct b eqn:?
  | |- pc (let '_ := ?b in _) _ => destruct b eqn:?
  | |- pc (match ?b with _ => _ end) _ => destruct b eqn:?
  | |- pc (bind _ _) _ => apply pc_any; intro
  end.
Lemma fr_remC s0 number s : fr s0 s -> pc (removeConstraint0 junk number true false s) (fun x => fr s0 (snd x)).
Proof.
  intros K. unfold removeConstraint0. apply pc_any. intros [r|k]; [exact K|]. unfold removeConstraint_update. cbv zeta. rewrite andb_false_r. cbn [andb bind negb].
  repeat fstep; fk.
Qed.
Lemma fr_remB s0 number s : fr s0 s -> pc (removeBound0 junk number true false s) (fun x => fr s0 (snd x)).
Proof.
  intros K. unfold removeBound0. apply pc_any. intros [r|]; [exact K|]. unfold removeBound_update. cbv zeta. rewrite andb_false_r. cbn [andb bind negb].
  repeat fstep; fk.
Qed.
Lemma storeRho_noflip' n nz o af ex rho2 (R : arr) : o_enableFlippingBounds o = false -> pc (storeRho n nz o af ex rho2 R) (fun d => match d with DFlip => False | _ => True end).
Proof. intros E. unfold storeRho. rewrite E. cbn [andb]. repeat (first [destruct (_ >' _) | destruct ex | destruct af]; cbn [negb]; try exact I). all: try (apply pc_any; intro; exact I). Qed.
Ltac gstep E := first [match goal with
  | |- pc (bind (storeRho _ _ _ _ _ _ _) _) _ => eapply pc_bind; [apply storeRho_noflip'; exact E|]; cbv beta; intros [?| | |] ?; [|contradiction| |]
  end | fstep].
Lemma fr_leaveC number s : o_enableFlippingBounds (p_opts s) = false -> pc (p_removeConstraint junk number true true false s) (fun x => fr s (snd x)).
Proof.
  intros E. pose proof (fr_refl s) as K. unfold p_removeConstraint. apply pc_any. intros [r|k]; [exact K|]. cbn [bind]. destruct (negb _); [exact K|]. unfold removeConstraint_update. cbv zeta. rewrite E. cbn [andb bind negb].
  repeat gstep E; fk.
Qed.
Lemma fr_leaveB number s : o_enableFlippingBounds (p_opts s) = false -> pc (p_removeBound junk number true true false s) (fun x => fr s (snd x)).
Proof.
  intros E. pose proof (fr_refl s) as K. unfold p_removeBound. apply pc_any. intros [r|]; [exact K|]. cbn [bind]. destruct (negb _); [exact K|]. unfold removeBound_update. cbv zeta. rewrite E. cbn [andb bind negb].
  repeat gstep E; fk.
Qed.
Lemma fr_addC s0 number v upd s : fr s0 s -> pc (addConstraint_update junk number v upd s) (fun x => fr s0 (snd x)).
Proof.
  intros K. unfold addConstraint_update. cbv zeta. apply pc_any. intros A. apply pc_any. intros aFR. apply pc_any. intros wZ. apply pc_any. intros T. apply pc_any. intros [[T' Q] R].
  eapply pc_bind; [apply fl_activate|]. intros [r c] C. cbn [snd pc] in *. fk.
Qed.
Lemma fr_addB s0 number v upd s : fr s0 s -> pc (addBound_update junk number v upd s) (fun x => fr s0 (snd x)).
Proof.
  intros K. unfold addBound_update. cbv zeta. apply pc_any. intros last.
  eapply pc_bind with (P := fun s' => fr s0 s').
  { destruct (negb _); [|exact K]. eapply pc_bind; [apply fl_swap|]. intros [r b] S. cbn [pc snd] in *. fk. }
  intros s1 K1. apply pc_any. intros ll. apply pc_any. intros w. apply pc_any. intros [[w' Q] R]. apply pc_any. intros [Q' T]. apply pc_any. intros R'.
  eapply pc_bind; [apply fl_activate|]. intros [r b] H. cbn [snd pc] in *. destruct K1 as (A & B & C). split; [exact (fl_trans _ _ _ A H)|]. split; assumption.
Qed.
(** the independence tests *)
Ltac fk1 := match goal with H : fr _ _ |- fr _ _ => exact H end.
Lemma fr_step s0 d bCz bBz p s : fr s0 s -> pc (p_stepDirection d bCz bBz p s) (fun '(_, _, s') => fr s0 s').
Proof. intros K. unfold p_stepDirection. do 5 (apply pc_any; intro). apply pc_any. intros [[[c xFR] yAC]|[[[rv c] xFR] yAC]]; cbv beta zeta iota; repeat fstep; fk. Qed.
Lemma fr_full s0 dg s : fr s0 s -> pc (fullLI junk dg s) (fun '(_, s') => fr s0 s').
Proof. intros K. unfold fullLI. cbv zeta. apply pc_any. intro. eapply pc_bind; [apply fr_step; exact K|]. intros [[? ?] ?] ?. repeat fstep; fk. Qed.
Lemma fr_checkC s0 number s : fr s0 s -> pc (addConstraint_checkLI junk number s) (fun '(_, s') => fr s0 s').
Proof.
  intros K. unfold addConstraint_checkLI. repeat (cbv beta zeta; match goal with
    | |- pc (bind (fullLI _ _ _) _) _ => eapply pc_bind; [apply fr_full; fk1|]; intros [? ?] ?
    | |- pc (fullLI _ _ _) _ => apply fr_full; fk1
    | _ => fstep end); fk.
Qed.
Lemma fr_checkB s0 number s : fr s0 s -> pc (addBound_checkLI junk number s) (fun '(_, s') => fr s0 s').
Proof.
  intros K. unfold addBound_checkLI. repeat (cbv beta zeta; match goal with
    | |- pc (bind (fullLI _ _ _) _) _ => eapply pc_bind; [apply fr_full; fk1|]; intros [? ?] ?
    | |- pc (fullLI _ _ _) _ => apply fr_full; fk1
    | _ => fstep end); fk.
Qed.
Lemma fr_resolve s0 number slot v isB xiB xiC s : fr s0 s -> o_enableDropInfeasibles (p_opts s) = false -> pc (resolveLI junk number slot v isB xiB xiC s) (fun x => fr s0 (snd x)).
Proof.
  intros K E. unfold resolveLI. cbv zeta. rewrite E. apply pc_any. intro. apply pc_any. intros [? ?]. apply pc_any. intro. apply pc_any. intros [? ?].
  destruct (_ || _); [|exact K]. apply pc_any. intro. apply pc_any. intro. apply pc_any. intro y. destruct (_ <=? _).
  - eapply pc_bind; [apply (fr_remB s0); exact K|]. intros [r s1] K1. cbn [snd] in K1. destruct (negb _); [exact K1|]. apply pc_any. intro. exact K1.
  - eapply pc_bind; [apply (fr_remC s0); exact K|]. intros [r s1] K1. cbn [snd] in K1. destruct (negb _); [exact K1|]. apply pc_any. intro. exact K1.
Qed.
Lemma fr_enterC number v s : o_enableDropInfeasibles (p_opts s) = false -> pc (p_addConstraint junk number v true true s) (fun x => fr s (snd x)).
Proof.
  intros E. pose proof (fr_refl s) as K. unfold p_addConstraint. apply pc_any. intros [r|]; [exact K|]. cbn [andb].
  eapply pc_bind with (P := fun x => fr s (snd x)).
  { unfold addConstraint_ensureLI. destruct (addConstraint_checkLI junk number s) as [(li, s1)| |] eqn:E1; try exact I. cbn [bind].
    pose proof (fr_checkC s number s K) as P. rewrite E1 in P. cbn [pc] in P. pose proof (k_checkC junk number s) as P2. rewrite E1 in P2. destruct P2 as (_ & _ & EO).
    destruct (li =r? _); [exact P|]. destruct (li =r? _); [exact P|]. apply pc_any. intro. cbv zeta. apply pc_any. intro. apply pc_any. intros [r xi]. destruct (negb _); [exact P|]. apply pc_any. intro. apply pc_any. intro.
    apply fr_resolve; [exact P|]. rewrite EO. exact E. }
  intros [r s1] K1. cbn [snd] in K1. destruct (afterLI _ _); [exact K1|]. now apply fr_addC.
Qed.
Lemma fr_enterB number v s : o_enableDropInfeasibles (p_opts s) = false -> pc (p_addBound junk number v true true s) (fun x => fr s (snd x)).
Proof.
  intros E. pose proof (fr_refl s) as K. unfold p_addBound. apply pc_any. intros [r|]; [exact K|]. cbn [andb].
  eapply pc_bind with (P := fun x => fr s (snd x)).
  { unfold addBound_ensureLI. destruct (addBound_checkLI junk number s) as [(li, s1)| |] eqn:E1; try exact I. cbn [bind].
    pose proof (fr_checkB s number s K) as P. rewrite E1 in P. cbn [pc] in P. pose proof (k_checkB junk number s) as P2. rewrite E1 in P2. destruct P2 as (_ & _ & EO).
    destruct (li =r? _); [exact P|]. destruct (li =r? _); [exact P|]. apply pc_any. intros [r xi]. destruct (negb _); [exact P|]. apply pc_any. intro. apply pc_any. intro.
    apply fr_resolve; [exact P|]. rewrite EO. exact E. }
  intros [r s1] K1. cbn [snd] in K1. destruct (afterLI _ _); [exact K1|]. now apply fr_addB.
Qed.
Lemma fr_change k s : o_enableDropInfeasibles (p_opts s) = false -> o_enableFlippingBounds (p_opts s) = false -> o_enableNZCTests (p_opts s) = false -> pc (p_changeActiveSet junk k s) (fun x => fr s (snd x)).
Proof.
  intros E1 E2 E3. unfold p_changeActiveSet. rewrite E3. cbv zeta.
  assert (AD : forall v, pc (if bk_isB k then p_addBound junk (bk_idx k) v true true s else p_addConstraint junk (bk_idx k) v true true s) (fun x => fr s (snd x))) by (intros v; destruct (bk_isB k); [now apply fr_enterB|now apply fr_enterC]).
  destruct (bk_st k); try (eapply pc_bind; [apply AD|]; intros [r s1] K; exact K); [|apply fr_refl].
  eapply pc_bind with (P := fun x => fr s (snd x)); [destruct (bk_isB k); [now apply fr_leaveB|now apply fr_leaveC]|].
  intros [r s1] K. cbn [snd] in K. destruct (negb _); [exact K|]. apply pc_any. intro. exact K.
Qed.
End F.
