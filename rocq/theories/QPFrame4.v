(** What removing a bound or constraint without flipping leaves alone: iterate,
    multipliers, data and distances.  For every arithmetic. *)
From Verif Require Import Base Types Num Options Indexlist IndexlistProofs SafeLib SubjectTo SubjectToProofs Flipper Matrices LinAlg QProblemB QProblem QProblem2 QProblem3 QProblem4 QProblem5 QPFrame QPFrame2 QPFrame3.
Local Open Scope Z_scope.

Section F.
Context {N : Num}.
Notation arr := (list N).
Notation qp := (qp N).
Variable junk : Z -> arr.

Lemma n_deactivate b i : pc (st_deactivate b i) (samen b).
Proof.
  unfold st_deactivate. destruct (negb _); [reflexivity|]. eapply pc_bind; [apply n_rem|]. intros [r s1] E. destruct (negb _); [exact E|].
  eapply pc_bind; [apply n_add|]. intros [r2 s2] E2. unfold samen in *. cbn [snd] in *. destruct (negb _); cbn [pc snd]; congruence.
Qed.
Lemma storeRho_noflip n nz o ex rho2 (R : arr) : pc (storeRho n nz o false ex rho2 R) (fun d => match d with DFlip => False | _ => True end).
Proof. unfold storeRho. rewrite ?andb_false_r. cbn [andb]. repeat (first [destruct (_ <' _) | destruct (_ >' _) | destruct ex | destruct (_ && _)]; try exact I). all: try (apply pc_any; intro; exact I); try exact I. Qed.

Ltac dk := match goal with
  | H : dat _ _ |- dat _ _ => exact H
  | H : dat ?a ?b, E : samen _ _ |- dat _ _ => unfold samen in E; cbn [snd] in E; first [exact (dat_bounds a b _ H E) | exact (dat_cons a b _ H E)]
  end.
Ltac dstep :=
  cbv beta zeta;
  match goal with
  | |- pc (Ok _) _ => cbn [pc snd]
  | |- pc UB _ => exact I
  | |- pc Hang _ => exact I
  | |- pc (bind UB _) _ => exact I
  | |- pc (bind (bind _ _) _) _ => apply pc_assoc
  | |- pc (bind (Ok _) _) _ => cbn [bind]
  | |- pc (bind (st_deactivate _ _) _) _ => eapply pc_bind; [apply n_deactivate|]; cbv beta; intros [? ?] ?
  | |- pc (bind (storeRho _ _ _ false _ _ _) _) _ => eapply pc_bind; [apply storeRho_noflip|]; cbv beta; intros [?| | |] ?; [|contradiction| |]
  | |- pc (bind (if ?b then _ else _) _) _ => destruct b eqn:?
  | |- pc (bind (match ?b with _ => _ end) _) _ => destruct b eqn:?
  | |- pc (if ?b then _ else _) _ => destruct b eqn:?
  | |- pc (let '_ := ?b in _) _ => destruct b eqn:?
  | |- pc (match ?b with _ => _ end) _ => destruct b eqn:?
  | |- pc (bind _ _) _ => apply pc_any; intro
  end.
Lemma d_remC s0 number s : dat s0 s -> pc (removeConstraint0 junk number true false s) (fun x => dat s0 (snd x)).
Proof.
  intros K. unfold removeConstraint0. apply pc_any. intros [r|k]; [exact K|]. unfold removeConstraint_update. cbv zeta. rewrite andb_false_r. cbn [andb bind negb].
  repeat dstep; dk.
Qed.
Lemma d_remB s0 number s : dat s0 s -> pc (removeBound0 junk number true false s) (fun x => dat s0 (snd x)).
Proof.
  intros K. unfold removeBound0. apply pc_any. intros [r|]; [exact K|]. unfold removeBound_update. cbv zeta. rewrite andb_false_r. cbn [andb bind negb].
  repeat dstep; dk.
Qed.

(** what the working set changes do to types and statuses *)
Lemma c_deactivate b i : pc (st_deactivate b i) (fun x => chg b i ST_INACTIVE (snd x)).
Proof.
  unfold st_deactivate. destruct (negb _); [apply chg_refl|]. eapply pc_bind; [apply c_rem|]. intros [r s1] E. cbn [snd] in E.
  assert (C1 : chg b i ST_INACTIVE s1) by (destruct E as (A & B & C & D); repeat split; auto; intuition). destruct (negb _); [exact C1|].
  eapply pc_bind; [apply c_add|]. intros [r2 s2] (E2 & _). cbn [snd] in E2.
  assert (C2 : chg b i ST_INACTIVE s2).
  { destruct C1 as (A1 & B1 & C1 & D1). destruct E2 as (A2 & B2 & C2 & D2). split; [congruence|]. split; [congruence|]. split; [intros j Hj Nj; rewrite C2, C1 by assumption; reflexivity|]. destruct D2 as [D2|D2]; [rewrite D2; exact D1|auto]. }
  destruct (negb _); exact C2.
Qed.
Definition chgC (s : qp) (i : Z) (v : SubjectToStatus) (s' : qp) : Prop := chg (p_cons s) i v (p_cons s') /\ p_bounds s' = p_bounds s.
Definition chgB (s : qp) (i : Z) (v : SubjectToStatus) (s' : qp) : Prop := chg (p_bounds s) i v (p_bounds s') /\ p_cons s' = p_cons s.
Ltac ck := first [exact I | split; [apply chg_refl|reflexivity] | split; [assumption|reflexivity]].
Ltac cstep :=
  cbv beta zeta;
  match goal with
  | |- pc (Ok _) _ => cbn [pc snd]
  | |- pc UB _ => exact I
  | |- pc Hang _ => exact I
  | |- pc (bind UB _) _ => exact I
  | |- pc (bind (bind _ _) _) _ => apply pc_assoc
  | |- pc (bind (Ok _) _) _ => cbn [bind]
  | |- pc (bind (st_deactivate _ _) _) _ => eapply pc_bind; [apply c_deactivate|]; cbv beta; intros [? ?] ?; cbn [snd] in *
  | |- pc (bind (storeRho _ _ _ false _ _ _) _) _ => eapply pc_bind; [apply storeRho_noflip|]; cbv beta; intros [?| | |] ?; [|contradiction| |]
  | |- pc (bind (if ?b then _ else _) _) _ => destruct b eqn:?
  | |- pc (bind (match ?b with _ => _ end) _) _ => destruct b eqn:?
  | |- pc (if ?b then _ else _) _ => destruct b eqn:?
  | |- pc (let '_ := ?b in _) _ => destruct b eqn:?
  | |- pc (match ?b with _ => _ end) _ => destruct b eqn:?
  | |- pc (bind _ _) _ => apply pc_any; intro
  end.
Lemma c_remC number s : pc (removeConstraint0 junk number true false s) (fun x => chgC s number ST_INACTIVE (snd x)).
Proof.
  unfold removeConstraint0. apply pc_any. intros [r|k]; [ck|]. unfold removeConstraint_update. cbv zeta. rewrite andb_false_r. cbn [andb bind negb].
  repeat cstep; ck.
Qed.
Lemma c_remB number s : pc (removeBound0 junk number true false s) (fun x => chgB s number ST_INACTIVE (snd x)).
Proof.
  unfold removeBound0. apply pc_any. intros [r|]; [ck|]. unfold removeBound_update. cbv zeta. rewrite andb_false_r. cbn [andb bind negb].
  repeat cstep; ck.
Qed.
Lemma c_addC number v upd s : pc (addConstraint_update junk number v upd s) (fun x => chgC s number v (snd x)).
Proof.
  unfold addConstraint_update. cbv zeta. apply pc_any. intros A. apply pc_any. intros aFR. apply pc_any. intros wZ. apply pc_any. intros T. apply pc_any. intros [[T' Q] R].
  eapply pc_bind; [apply c_activate|]. intros [r c] C. cbn [snd pc] in *. ck.
Qed.
Lemma c_addB number v upd s : pc (addBound_update junk number v upd s) (fun x => chgB s number v (snd x)).
Proof.
  unfold addBound_update. cbv zeta. apply pc_any. intros last.
  eapply pc_bind with (P := fun s' => same_st (p_bounds s) (p_bounds s') /\ p_cons s' = p_cons s).
  { destruct (negb _); [|repeat split]. eapply pc_bind; [apply c_swap|]. intros [r b] S. cbn [pc snd] in *. split; [exact S|reflexivity]. }
  intros s1 ((A & B & C) & D). apply pc_any. intros ll. apply pc_any. intros w. apply pc_any. intros [[w' Q] R]. apply pc_any. intros [Q' T]. apply pc_any. intros R'.
  eapply pc_bind; [apply c_activate|]. intros [r b] H. cbn [snd pc] in *. change (chg (p_bounds s1) number v b) in H. split; [|exact D]. destruct H as (A1 & B1 & C1 & D1). unfold chg. match goal with |- context [p_bounds ?q] => change (p_bounds q) with b end.
  split; [exact (eq_trans A1 A)|]. split; [exact (eq_trans B1 B)|]. rewrite <- C. split; assumption.
Qed.
End F.
