(** The problem data, the iterate and the activities are not touched while the
    working set of an auxiliary QP is built afresh.  For every arithmetic. *)
From Verif Require Import Base Types Num Options Indexlist SubjectTo Flipper Matrices LinAlg QProblemB QProblem QProblem2 QProblem3 QProblem4 QProblem5 QPFrame.
Local Open Scope Z_scope.

Section Len.
Definition samen (b : subjectTo) (x : returnValue * subjectTo) : Prop := st_n (snd x) = st_n b.
Ltac sn := unfold samen in *; cbn [pc fst snd st_n st_set_status st_set_type st_set_list st_set_ina st_set_act] in *; try congruence.
Lemma n_setType b i v : pc (st_setType b i v) (samen b).
Proof. unfold st_setType. destruct (_ && _); [apply pc_any; intro|]; sn. Qed.
Lemma n_setStatus b i v : pc (st_setStatus b i v) (samen b).
Proof. unfold st_setStatus. destruct (_ && _); [apply pc_any; intro|]; sn. Qed.
Lemma n_list b w l : st_n (st_set_list b w l) = st_n b.
Proof. destruct w; reflexivity. Qed.
Lemma n_add b w i v : pc (st_addIndex b w i v) (samen b).
Proof.
  unfold st_addIndex. destruct (_ =? _); [sn|]. apply pc_any. intro. destruct (sts_eq_dec _ _); [sn|]. apply pc_any. intro. cbv zeta.
  apply pc_any. intros [r l]. destruct (_ =r? _); cbn [pc]; unfold samen; cbn [snd]; now rewrite n_list.
Qed.
Lemma n_rem b w i : pc (st_removeIndex b w i) (samen b).
Proof.
  unfold st_removeIndex. destruct (_ =? _); [sn|]. apply pc_any. intro. cbv zeta.
  apply pc_any. intros [r l]. destruct (_ =r? _); cbn [pc]; unfold samen; cbn [snd]; now rewrite n_list.
Qed.
Lemma n_activate b i v : pc (st_activate b i v) (samen b).
Proof.
  unfold st_activate. destruct (negb _); [sn|]. eapply pc_bind; [apply n_rem|]. intros [r s1] E. destruct (negb _); [sn|].
  eapply pc_bind; [apply n_add|]. intros [r2 s2] E2. destruct (negb _); sn.
Qed.
Lemma n_swap b i j : pc (st_swapFree b i j) (samen b).
Proof.
  unfold st_swapFree, st_swapIndex. destruct (_ || _); [sn|]. destruct (_ =? _); [sn|]. apply pc_any. intro. apply pc_any. intro.
  destruct (sts_eq_dec _ _); [|sn]. destruct (_ =? _); [sn|]. apply pc_any. intros [r l]. destruct (_ =r? _); cbn [pc]; unfold samen; cbn [snd]; now rewrite n_list.
Qed.
Lemma n_setup k b i v : pc (st_setup k b i v) (samen b).
Proof.
  unfold st_setup. destruct (negb _); [sn|]. cbv zeta. destruct v; try (sn; fail).
  all: eapply pc_bind; [apply n_add|]; intros [r s1] E; destruct (_ =r? _); sn.
Qed.
Lemma n_pass k sel v b : pc (st_setupPass k sel v b) (fun c => match c with Next s => st_n s = st_n b | Brk e => st_n (snd e) = st_n b end).
Proof.
  unfold st_setupPass. eapply pc_mono.
  - apply (pc_forb (fun s => st_n s = st_n b) (fun e : returnValue * subjectTo => st_n (snd e) = st_n b)); [reflexivity|].
    intros i s Hs. apply pc_any. intro t. destruct (sel t); [|exact Hs]. eapply pc_bind; [apply n_setup|]. intros [r s1] E. destruct (_ =r? _); sn.
  - intros [s|e]; auto.
Qed.
Lemma n_setupAll k b v : pc (st_setupAll k b v) (samen b).
Proof.
  unfold st_setupAll. do 4 (eapply pc_bind; [apply n_pass|]; let c := fresh in let E := fresh in intros c E; destruct c; [|sn]). sn.
Qed.
Lemma n_init b n : 0 <= n -> st_n (snd (st_init b n)) = n.
Proof. intros H. unfold st_init. destruct (Z.ltb_spec n 0); [lia|reflexivity]. Qed.
End Len.

Section F.
Context {N : Num}.
Notation arr := (list N).
Notation qpb := (qpb N).
Notation qp := (qp N).
Variable junk : Z -> arr.

Definition dat (s s' : qp) : Prop :=
  (q_x (p_b s') = q_x (p_b s) /\ q_y (p_b s') = q_y (p_b s) /\ q_lb (p_b s') = q_lb (p_b s) /\ q_ub (p_b s') = q_ub (p_b s) /\
   q_g (p_b s') = q_g (p_b s) /\ q_H (p_b s') = q_H (p_b s) /\ q_regVal (p_b s') = q_regVal (p_b s) /\ q_status (p_b s') = q_status (p_b s)) /\
  (p_A s' = p_A s /\ p_lbA s' = p_lbA s /\ p_ubA s' = p_ubA s /\ p_Ax s' = p_Ax s /\ p_Ax_l s' = p_Ax_l s /\ p_Ax_u s' = p_Ax_u s) /\
  pV s' = pV s /\ pC s' = pC s.
Lemma dat_refl s : dat s s.
Proof. repeat split. Qed.
Lemma dat_trans a b c : dat a b -> dat b c -> dat a c.
Proof. unfold dat; intuition congruence. Qed.
Lemma dat_bounds s0 s b : dat s0 s -> st_n b = st_n (p_bounds s) -> dat s0 (up_b (set_q_bounds b) s).
Proof.
  unfold dat. intros (A & B & C & D) E. split; [exact A|]. split; [exact B|]. split; [|exact D]. rewrite <- C. unfold pV, nV. exact E.
Qed.
Lemma dat_cons s0 s c : dat s0 s -> st_n c = st_n (p_cons s) -> dat s0 (set_p_cons c s).
Proof.
  unfold dat. intros (A & B & C & D) E. split; [exact A|]. split; [exact B|]. split; [exact C|]. rewrite <- D. unfold pC. exact E.
Qed.

Section S.
Variable s0 : qp.
Definition dok (x : returnValue * qp) : Prop := dat s0 (snd x).
Ltac dk := match goal with
  | H : dat _ _ |- dat _ _ => exact H
  | H : dat ?a ?b, E : samen _ _ |- dat _ _ => unfold samen in E; cbn [snd] in E; first [exact (dat_bounds a b _ H E) | exact (dat_cons a b _ H E)]
  | H : dat _ _ |- dat _ _ => let A := fresh in let B := fresh in let C := fresh in let D := fresh in
      destruct H as (A & B & C & D); split; [exact A|]; split; [exact B|]; split; [rewrite <- C | rewrite <- D]; unfold samen, pV, pC, nV, p_bounds in *; cbn in *; congruence
  end.
Ltac known := fail.
Ltac dstep :=
  cbv beta zeta;
  match goal with
  | |- pc (Ok _) _ => cbn [pc]
  | |- pc UB _ => exact I
  | |- pc Hang _ => exact I
  | |- pc (bind UB _) _ => exact I
  | |- pc (bind Hang _) _ => exact I
  | |- pc (bind (bind _ _) _) _ => apply pc_assoc
  | |- pc (bind (Ok _) _) _ => cbn [bind]
  | |- pc (bind (st_activate _ _ _) _) _ => eapply pc_bind; [apply n_activate|]; cbv beta; intros [? ?] ?
  | |- pc (bind (st_swapFree _ _ _) _) _ => eapply pc_bind; [apply n_swap|]; cbv beta; intros [? ?] ?
  | |- pc (bind (st_setType _ _ _) _) _ => eapply pc_bind; [apply n_setType|]; cbv beta; intros [? ?] ?
  | |- pc (bind _ _) _ => eapply pc_bind; [known|]; cbv beta; [intros [? ?] ?; unfold dok in *; cbn [fst snd] in *]
  | |- pc (bind (if ?b then _ else _) _) _ => destruct b eqn:?
  | |- pc (bind (match ?b with _ => _ end) _) _ => destruct b eqn:?
  | |- pc (if ?b then _ else _) _ => destruct b eqn:?
  | |- pc (let '_ := ?b in _) _ => destruct b eqn:?
  | |- pc (match ?b with _ => _ end) _ => destruct b eqn:?
  | |- pc (bind _ _) _ => apply pc_any; intro
  | |- pc _ _ => known
  end.
Ltac leaf := unfold dok; cbn [fst snd]; try dk.
Ltac dsteps := repeat dstep; leaf.

Lemma d_addC number v upd s : dat s0 s -> pc (addConstraint_update junk number v upd s) dok.
Proof. intros K. unfold addConstraint_update. dsteps. Qed.
Lemma d_addB number v upd s : dat s0 s -> pc (addBound_update junk number v upd s) dok.
Proof. intros K. unfold addBound_update. dsteps. Qed.
Lemma d_step d bCz bBz p s : dat s0 s -> pc (p_stepDirection d bCz bBz p s) (fun '(_, _, s') => dat s0 s').
Proof.
  intros K. unfold p_stepDirection. do 5 (apply pc_any; intro). apply pc_any. intros [[[c xFR] yAC]|[[[rv c] xFR] yAC]]; cbv beta zeta iota; dsteps.
Qed.
Lemma d_full dg s : dat s0 s -> pc (fullLI junk dg s) dok.
Proof.
  intros K. unfold fullLI. cbv zeta. apply pc_any. intro. eapply pc_bind; [apply d_step, K|]. intros [[? ?] ?] ?. dsteps.
Qed.
Ltac known ::= first [apply d_full; dk].
Lemma d_checkC number s : dat s0 s -> pc (addConstraint_checkLI junk number s) dok.
Proof. intros K. unfold addConstraint_checkLI. dsteps. Qed.
Lemma d_checkB number s : dat s0 s -> pc (addBound_checkLI junk number s) dok.
Proof. intros K. unfold addBound_checkLI. dsteps. Qed.
Ltac known ::= first [apply d_addC; dk | apply d_addB; dk | apply d_checkC; dk | apply d_checkB; dk].
(** without an update of the Cholesky factor no independence is enforced *)
Lemma d_p_addC number v li s : dat s0 s -> pc (p_addConstraint junk number v false li s) dok.
Proof. intros K. unfold p_addConstraint. cbn [andb]. dsteps. Qed.
Lemma d_p_addB number v li s : dat s0 s -> pc (p_addBound junk number v false li s) dok.
Proof. intros K. unfold p_addBound. cbn [andb]. dsteps. Qed.

Lemma d_loop n step s : dat s0 s -> (forall i s, dat s0 s -> pc (step i s) dok) ->
  pc (ws_loop n step s) (fun c => match c with Next s => dat s0 s | Brk s => dat s0 s end).
Proof.
  intros K H. unfold ws_loop. eapply pc_mono; [apply (pc_forb (dat s0) (dat s0)); [exact K|]|intros [x|x]; auto].
  intros i s1 K1. eapply pc_bind; [apply H, K1|]. intros [r s2] K2. unfold dok in K2. cbn [snd] in K2. destruct (_ =r? _); exact K2.
Qed.
Ltac known ::= first [apply d_p_addC; dk | apply d_p_addB; dk | apply d_checkC; dk | apply d_checkB; dk].
Lemma d_afresh auxB auxC s : dat s0 s -> pc (p_setupAuxiliaryWorkingSet junk auxB auxC true s) dok.
Proof.
  intros K. unfold p_setupAuxiliaryWorkingSet. cbv zeta. cbn [negb].
  apply pc_any. intros ok1. destruct (negb ok1); [exact K|]. apply pc_any. intros ok2. destruct (negb ok2); [exact K|].
  apply pc_any. intros triv. destruct triv.
  { eapply pc_bind; [apply (pc_for_up (dat s0)); [exact K|]|intros s1 K1; exact K1]. intros i s1 K1. dsteps. }
  eapply pc_bind; [apply d_loop; [dk|intros i s1 K1; dsteps]|]. intros [s1|s1] E1; [|exact E1].
  eapply pc_bind; [apply d_loop; [dk|intros i s2 K2; dsteps]|]. intros [s2|s2] E2; [|exact E2].
  eapply pc_bind; [apply d_loop; [dk|intros i s3 K3; dsteps]|]. intros [s3|s3] E3; [|exact E3].
  eapply pc_bind; [apply d_loop; [dk|intros i s4 K4; dsteps]|]. intros [s4|s4] E4; [|exact E4].
  exact E4.
Qed.
Lemma d_tq s : dat s0 s -> pc (setupTQfactorisation s) dok.
Proof. intros K. unfold setupTQfactorisation. dsteps. Qed.
Lemma d_cproj s : dat s0 s -> pc (computeProjectedCholesky s) dok.
Proof.
  intros K. unfold computeProjectedCholesky. cbv zeta. destruct (_ =? 0).
  - unfold computeCholesky. dsteps.
  - dsteps.
Qed.

Lemma n_forType n f (b : subjectTo) : (forall i c, st_n c = st_n b -> pc (f i c) (fun c' => st_n c' = st_n b)) ->
  pc (for_up 0 n f b) (fun c => st_n c = st_n b).
Proof. intros H. apply (pc_for_up (fun c : subjectTo => st_n c = st_n b)); [reflexivity|exact H]. Qed.
Lemma n_bsetType (b c : subjectTo) i t : st_n c = st_n b -> pc (b_setType c i t) (fun c' => st_n c' = st_n b).
Proof. intros E. unfold b_setType. eapply pc_bind; [apply n_setType|]. intros [r d] E'. unfold samen in E'. cbn [snd pc] in *. congruence. Qed.
Ltac tstep := repeat (cbv beta zeta; match goal with
  | |- pc (b_setType _ _ _) _ => apply n_bsetType; assumption
  | |- pc (Ok _) _ => cbn [pc]; assumption
  | |- pc (bind _ _) _ => apply pc_any; intro
  | |- pc (if ?b then _ else _) _ => destruct b eqn:?
  end).
Lemma d_types lbn ubn lbAn ubAn s : dat s0 s -> pc (p_setupSubjectToType lbn ubn lbAn ubAn s) (dat s0).
Proof.
  intros K. unfold p_setupSubjectToType.
  eapply pc_bind with (P := fun b => exists bd, b = set_q_bounds bd (p_b s) /\ st_n bd = st_n (p_bounds s)).
  { unfold setupSubjectToType. apply pc_any. intro lo. apply pc_any. intro up. cbv zeta.
    match goal with |- pc (bind ?m _) _ => assert (P : pc m (fun c => st_n c = st_n (p_bounds s))) end.
    { destruct lbn, ubn.
      all: match goal with |- pc (for_up 0 _ _ ?b) _ => change (st_n (p_bounds s)) with (st_n b) end.
      all: apply n_forType; intros i c E; tstep. }
    eapply pc_bind; [exact P|]. intros c E. cbn [pc]. exists c. split; [reflexivity|exact E]. }
  intros b (bd & -> & E). cbv zeta. apply pc_any. intro lo. apply pc_any. intro up.
  assert (K1 : dat s0 (set_p_b (set_q_bounds bd (p_b s)) s)) by (apply (dat_bounds s0 s bd K E)).
  set (s1 := set_p_b (set_q_bounds bd (p_b s)) s) in *. clearbody s1. clear K s E.
  match goal with |- pc (bind ?m _) _ => assert (P : pc m (fun c => st_n c = st_n (p_cons s1))) end.
  { destruct lbAn, ubAn.
    all: match goal with |- pc (for_up 0 _ _ ?b) _ => change (st_n (p_cons s1)) with (st_n b) end.
    all: apply n_forType; intros i c E; tstep. }
  eapply pc_bind; [exact P|]. intros c E. cbn [pc]. now apply dat_cons.
Qed.
End S.
End F.
