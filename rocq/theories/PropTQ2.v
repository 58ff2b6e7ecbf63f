(** C47, C48: where the factorisations are not exact, and examples. *)
From Verif Require Import Base Types Num Options Indexlist Loops RSum LinSpec SafeLib SubjectTo SubjectToProofs Flipper Matrices LinAlg QProblemB QPBX2 QPBX4 QProblem QProblem2 QProblem3
  QPX8 QPX13 QPX14 QPX16 PropAux QPBSafe2 QPBSafe6 PropFlipper PropTQ.
From Coq Require Import QArith Lra.
Open Scope Z_scope.

(** *** Counterexamples, computed with rationals *)
Definition q_load (n m : Z) (H A : list Q) (o : options QNum) : res (qp QNum) :=
  '(_, s) <- p_setupQPdata (N := QNum) ce_junk (HArr (N := QNum) (Some H)) (Some (repeat 0%Q (Z.to_nat n))) (AArr (N := QNum) (Some A)) None None None None
      (p_new (N := QNum) ce_junk n m HST_UNKNOWN o) ;;
  '(_, b) <- st_setupAll KBounds (p_bounds s) ST_INACTIVE ;;
  '(_, c) <- st_setupAll KConstraints (p_cons s) ST_INACTIVE ;;
  '(_, s) <- setupTQfactorisation (set_p_cons (N := QNum) c (up_b (fun q => set_q_status (N := QNum) QPS_PREPARINGAUXILIARYQP (set_q_bounds (N := QNum) b q)) s)) ;;
  Ok s.
Definition qn (l : list Q) (i : Z) : Q := zn 0%Q l i.
Fixpoint qsum (k : nat) (f : Z -> Q) : Q := match k with O => 0%Q | S k => (qsum k f + f (Z.of_nat k))%Q end.
(** entry (i,p) of A_active,free Q, and what it has to be *)
Definition q_AQ (A : list Q) (s : qp QNum) (i p : Z) : Q :=
  qsum (Z.to_nat (pFR s)) (fun j => qn A (zn 0%Z (p_AC s) i * pV s + zn 0%Z (p_FR s) j) * qn (p_Q s) (zn 0%Z (p_FR s) j + pV s * p))%Q.
Definition q_0T (s : qp QNum) (i p : Z) : Q :=
  if p <? pZ s then 0%Q else if i + (p - pZ s) <? pAC s - 1 then 0%Q else qn (p_T s) (i * p_sizeT s + (p_sizeT s - pAC s + (p - pZ s))).
(** entries (p,q) of R'R and Z'HZ *)
Definition q_RR (s : qp QNum) (p q : Z) : Q :=
  qsum (Z.to_nat (pZ s)) (fun k => (if k <=? p then qn (q_R (p_b s)) (k + pV s * p) else 0) * (if k <=? q then qn (q_R (p_b s)) (k + pV s * q) else 0))%Q.
Definition q_ZHZ (H : list Q) (s : qp QNum) (p q : Z) : Q :=
  qsum (Z.to_nat (pFR s)) (fun i => qsum (Z.to_nat (pFR s)) (fun j =>
    qn (p_Q s) (zn 0%Z (p_FR s) i + pV s * p) * qn H (zn 0%Z (p_FR s) i * pV s + zn 0%Z (p_FR s) j) * qn (p_Q s) (zn 0%Z (p_FR s) j + pV s * q)))%Q.

(** A removal that fails because the projected Hessian would be singular has
    already rotated T and Q, while the constraint stays active. *)
Definition q_noflip : options QNum := set_o_enableFlippingBounds (N := QNum) false optDefault.
Definition q_H1 : list Q := [1; 0; 0; 0; 0; 0; 0; 0; 0]%Q.
Definition q_A1 : list Q := [0; 0; 1; 0; 3; 4]%Q.
Definition q_s1 : res (qp QNum) :=
  s <- q_load 3 2 q_H1 q_A1 q_noflip ;;
  '(_, s) <- p_addConstraint (N := QNum) ce_junk 0 ST_LOWER false false s ;;
  '(_, s) <- p_addConstraint (N := QNum) ce_junk 1 ST_LOWER false false s ;;
  '(r, s) <- computeProjectedCholesky s ;;
  if r =r? SUCCESSFUL_RETURN then Ok s else UB.
Theorem C47_failed_removal_refuted : exists s s', q_s1 = Ok s /\
  (forall i p, 0 <= i < 2 -> 0 <= p < 3 -> (q_AQ q_A1 s i p == q_0T s i p)%Q) /\
  p_removeConstraint (N := QNum) ce_junk 0 true true false s = Ok (RET_HESSIAN_NOT_SPD, s') /\
  p_AC s' = [0; 1] /\ pAC s' = 2 /\ ~ (q_AQ q_A1 s' 0 1 == q_0T s' 0 1)%Q.
Proof.
  assert (T : match q_s1 with Ok s => (forall i p, In i [0; 1] -> In p [0; 1; 2] -> Qeq_bool (q_AQ q_A1 s i p) (q_0T s i p) = true) /\
      match p_removeConstraint (N := QNum) ce_junk 0 true true false s with
      | Ok (RET_HESSIAN_NOT_SPD, s') => p_AC s' = [0; 1] /\ pAC s' = 2 /\ Qeq_bool (q_AQ q_A1 s' 0 1) (q_0T s' 0 1) = false | _ => False end | _ => False end).
  { vm_compute. split; [|auto]. intros i p [<-|[<-|[]]] [<-|[<-|[<-|[]]]]; reflexivity. }
  destruct q_s1 as [s| |]; try contradiction. destruct T as (T1 & T2). exists s.
  destruct (p_removeConstraint (N := QNum) ce_junk 0 true true false s) as [[r s']| |]; try contradiction. destruct r; try contradiction. destruct T2 as (T2 & T3 & T4). exists s'.
  split; [reflexivity|]. split; [|split; [reflexivity|split; [exact T2|split; [exact T3|]]]].
  - intros i p Hi Hp. apply Qeq_bool_iff, T1; cbn; lia.
  - intros E. apply Qeq_bool_iff in E. congruence.
Qed.

(** Entries of magnitude at most ZERO are not rotated away. *)
Definition q_A2 : list Q := [1 # 100000000000000000000000000; 1]%Q.
Theorem C47_small_entry_refuted : exists s s', q_load 2 1 [1; 0; 0; 1]%Q q_A2 optDefault = Ok s /\
  p_addConstraint (N := QNum) ce_junk 0 ST_LOWER false false s = Ok (SUCCESSFUL_RETURN, s') /\ pAC s' = 1 /\ pZ s' = 1 /\ ~ (q_AQ q_A2 s' 0 0 == 0)%Q.
Proof.
  assert (T : match q_load 2 1 [1; 0; 0; 1]%Q q_A2 optDefault with Ok s => match p_addConstraint (N := QNum) ce_junk 0 ST_LOWER false false s with
      | Ok (SUCCESSFUL_RETURN, s') => pAC s' = 1 /\ pZ s' = 1 /\ Qeq_bool (q_AQ q_A2 s' 0 0) 0 = false | _ => False end | _ => False end) by (vm_compute; auto).
  destruct (q_load 2 1 [1; 0; 0; 1]%Q q_A2 optDefault) as [s| |]; try contradiction. exists s.
  destruct (p_addConstraint (N := QNum) ce_junk 0 ST_LOWER false false s) as [[r s']| |]; try contradiction. destruct r; try contradiction. destruct T as (T1 & T2 & T3). exists s'.
  repeat (split; [solve [auto]|]). intros E. apply Qeq_bool_iff in E. congruence.
Qed.

(** Refactorising with an empty working set factorises H, although Q is not the
    unit matrix after constraints have come and gone. *)
Definition q_H3 : list Q := [1; 0; 0; 4]%Q.
Definition q_A3 : list Q := [3; 4]%Q.
Definition q_s3 : res (qp QNum) :=
  s <- q_load 2 1 q_H3 q_A3 optDefault ;;
  '(_, s) <- p_addConstraint (N := QNum) ce_junk 0 ST_LOWER false false s ;;
  '(r, s) <- p_removeConstraint (N := QNum) ce_junk 0 false false false s ;;
  if r =r? SUCCESSFUL_RETURN then Ok s else UB.
Theorem C48_refactorisation_refuted : exists s s', q_s3 = Ok s /\ pAC s = 0 /\ pFX s = 0 /\ computeProjectedCholesky s = Ok (SUCCESSFUL_RETURN, s') /\
  plainH (p_b s') = true /\ ~ (q_RR s' 0 0 == q_ZHZ q_H3 s' 0 0)%Q.
Proof.
  assert (T : match q_s3 with Ok s => pAC s = 0 /\ pFX s = 0 /\ match computeProjectedCholesky s with
      | Ok (SUCCESSFUL_RETURN, s') => plainH (p_b s') = true /\ Qeq_bool (q_RR s' 0 0) (q_ZHZ q_H3 s' 0 0) = false | _ => False end | _ => False end) by (vm_compute; auto).
  destruct q_s3 as [s| |]; try contradiction. destruct T as (T1 & T2 & T). exists s.
  destruct (computeProjectedCholesky s) as [[r s']| |]; try contradiction. destruct r; try contradiction. destruct T as (T3 & T4). exists s'.
  repeat (split; [solve [auto]|]). intros E. apply Qeq_bool_iff in E. congruence.
Qed.

(** A removal that may not flip stores 100 EPS when the curvature vanishes. *)
Definition q_H4 : list Q := [1; 0; 0; 0]%Q.
Definition q_s4 : res (qp QNum) :=
  s <- q_load 2 1 q_H4 [0; 1]%Q optDefault ;;
  '(_, s) <- p_addConstraint (N := QNum) ce_junk 0 ST_LOWER false false s ;;
  '(r, s) <- computeProjectedCholesky s ;;
  if r =r? SUCCESSFUL_RETURN then Ok s else UB.
Theorem C48_forced_removal_refuted : exists s s', q_s4 = Ok s /\ (q_RR s 0 0 == q_ZHZ q_H4 s 0 0)%Q /\
  p_removeConstraint (N := QNum) ce_junk 0 true false false s = Ok (SUCCESSFUL_RETURN, s') /\ plainH (p_b s') = true /\ pZ s' = 2 /\ ~ (q_RR s' 1 1 == q_ZHZ q_H4 s' 1 1)%Q.
Proof.
  assert (T : match q_s4 with Ok s => Qeq_bool (q_RR s 0 0) (q_ZHZ q_H4 s 0 0) = true /\ match p_removeConstraint (N := QNum) ce_junk 0 true false false s with
      | Ok (SUCCESSFUL_RETURN, s') => plainH (p_b s') = true /\ pZ s' = 2 /\ Qeq_bool (q_RR s' 1 1) (q_ZHZ q_H4 s' 1 1) = false | _ => False end | _ => False end) by (vm_compute; auto).
  destruct q_s4 as [s| |]; try contradiction. destruct T as (T1 & T). exists s.
  destruct (p_removeConstraint (N := QNum) ce_junk 0 true false false s) as [[r s']| |]; try contradiction. destruct r; try contradiction. destruct T as (T3 & T4 & T5). exists s'.
  split; [auto|]. split; [now apply Qeq_bool_iff|]. repeat (split; [solve [auto]|]). intros E. apply Qeq_bool_iff in E. congruence.
Qed.

(** *** Examples *)
Local Open Scope R_scope.
Definition tq_eps : R := 1 / 10 ^ 12.
Definition tq_inf : R := 10 ^ 9.
Notation tqN := (RNumT tq_eps 0 tq_inf).
Definition tq_junk (k : Z) : list R := repeat 7 (Z.to_nat k).
Lemma tq_junk_ok : junk_ok (N := tqN) tq_junk.
Proof. intros k Hk. unfold tq_junk. rewrite zlen_repeat. lia. Qed.
Lemma tq_eps_pos : 0 < tq_eps.
Proof. unfold tq_eps. lra. Qed.
Definition tq_H : list R := [2; 1; 1; 2].
Definition tq_A : list R := [3; 4].
Definition tq_Am (i j : Z) : R := zn 0 tq_A (i * 2 + j).
Definition tq_Hm (i j : Z) : R := zn 0 tq_H (i * 2 + j).

Lemma rsum_two (f : Z -> R) : rsum 0 2 f = f 0%Z + f 1%Z.
Proof. rewrite rsum_first by lia. rewrite rsum_first by lia. rewrite rsum_empty by lia. change (0 + 1)%Z with 1%Z. ring. Qed.
Lemma tq_posdef : posdef 2 tq_Hm.
Proof.
  intros v (p & Hp & Np). unfold LinSpec.quad. rewrite !rsum_two.
  assert (v 0%Z <> 0 \/ v 1%Z <> 0) as NZ by (assert (p = 0 \/ p = 1)%Z as [->| ->] by lia; auto).
  generalize (v 0%Z) (v 1%Z) NZ. clear. intros a b NZ. change (tq_Hm 0 0) with 2. change (tq_Hm 0 1) with 1. change (tq_Hm 1 0) with 1. change (tq_Hm 1 1) with 2.
  replace (a * 2 * a + a * 1 * b + (b * 1 * a + b * 2 * b)) with ((a + b) * (a + b) + a * a + b * b) by ring.
  assert (0 <= (a + b) * (a + b)) by apply Rle_0_sqr. assert (0 <= a * a) by apply Rle_0_sqr. assert (0 <= b * b) by apply Rle_0_sqr.
  destruct NZ as [X|X]; apply Rsqr_pos_lt in X; unfold Rsqr in X; lra.
Qed.

Example C47_ex : exists s, loaded tq_eps 0 tq_inf tq_junk 2 1 HST_UNKNOWN optDefault tq_H [0; 0] tq_A None None None None = Ok s /\ ready tq_eps 0 tq_inf 2 1 tq_Am tq_Hm s /\
  exists s0 s1 r s2, setupTQfactorisation (N := tqN) s = Ok (SUCCESSFUL_RETURN, s0) /\ run tq_eps 0 tq_inf tq_junk (OChol) s0 = Ok (SUCCESSFUL_RETURN, s1) /\
    run tq_eps 0 tq_inf tq_junk (OAddC 0 ST_LOWER true true) s1 = Ok (r, s2) /\
    exec tq_eps 0 tq_inf tq_junk (sound tq_eps 0 tq_inf tq_Hm) tq_Am false s0 [OChol; OAddC 0 ST_LOWER true true] true s2.
Proof.
  destruct (C47_ready tq_eps 0 tq_inf tq_junk eq_refl tq_junk_ok 2 1 HST_UNKNOWN optDefault tq_H [0; 0] tq_A None None None None) as (s & E & RD & V & C & O & HT & _); try (exact I || lia || reflexivity || discriminate).
  { intros i j Hi Hj. assert (i = 0 \/ i = 1)%Z as [->| ->] by lia; assert (j = 0 \/ j = 1)%Z as [->| ->] by lia; reflexivity. }
  exists s. split; [exact E|]. split; [exact RD|].
  destruct (C48_first_factorisation tq_eps 0 tq_inf tq_junk eq_refl tq_eps_pos tq_junk_ok 2 1 tq_Am tq_Hm s RD tq_posdef) as (s0 & s1 & E0 & L0 & E1 & X1 & O1 & V1 & C1 & _); [unfold plainH, is_hst; rewrite HT; reflexivity|].
  destruct (C47_TQ_exact_partial tq_eps 0 tq_inf tq_junk eq_refl tq_eps_pos tq_junk_ok 2 1 tq_Am tq_Hm s RD) as (s0' & E0' & _ & P). assert (s0' = s0) by congruence. subst s0'.
  assert (LG : legal tq_eps 0 tq_inf tq_Am true s1 (OAddC 0 ST_LOWER true true)).
  { cbn [legal]. split; [rewrite C1, C; lia|]. split; [reflexivity|]. split; [auto|]. cbn [andb]. unfold li_options. rewrite O1, O. split; [reflexivity|].
    split; [change (0 <= 100000 * tq_eps); unfold tq_eps; lra|]. split; [change (0 < 1000 * tq_eps); unfold tq_eps; lra|]. discriminate. }
  assert (X1' : exec tq_eps 0 tq_inf tq_junk (cheap tq_eps 0 tq_inf) tq_Am false s0 [OChol] true s1).
  { eapply exec_cons; [exact L0|exact I|exact E1|reflexivity|apply exec_nil]. }
  destruct (proj2 (P _ _ _ X1') _ LG ltac:(intros _; rewrite O1, O; reflexivity)) as (r & s2 & E2). exists s0, s1, r, s2. repeat (split; [assumption|]).
  eapply exec_cons; [exact L0|exact I|exact E1|reflexivity|]. eapply exec_cons; [exact LG| |exact E2|exact I|apply exec_nil].
  intros _. left. rewrite V1, V. exact tq_posdef.
Qed.

Print Assumptions C47_TQ_exact_partial.
Print Assumptions C48_Cholesky_exact_partial.
