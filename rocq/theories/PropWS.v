(** C60: getWorkingSet of class QProblem writes -1, 0 or 1 for each bound and then
    for each constraint, and a working set rebuilt from these numbers is the same. *)
From Verif Require Import Base Types Num Options Indexlist SubjectTo Flipper Matrices LinAlg QProblemB QProblem QProblem2 QProblem3 QProblem4 QProblem5 SafeLib SubjectToProofs SubjectToProofs2 PropQPB.
From Coq Require Import Reals Lra QArith.
Local Open Scope Z_scope.

Section Export.
Context {N : Num}.
Notation arr := (list N).
Notation qp := (qp N).

(** the numbers written, in a table of their own *)
Definition codes (st : subjectTo) (a : arr) (off : Z) : Prop :=
  forall i, 0 <= i < st_n st ->
    (zs (st_status st) i = ST_LOWER -> zn n0 a (off + i) = nm1) /\
    (zs (st_status st) i = ST_UPPER -> zn n0 a (off + i) = n1) /\
    (zs (st_status st) i <> ST_LOWER -> zs (st_status st) i <> ST_UPPER -> zn n0 a (off + i) = n0).

Lemma export_loop (st : subjectTo) (ws : arr) : st_arr st -> st_n st <= zlen ws ->
  wp (for_up 0 (st_n st) (fun i a => v <- st_getStatus st i ;; wr a i (match v with ST_LOWER => nm1 | ST_UPPER => n1 | _ => n0 end)) ws)
     (fun a => zlen a = zlen ws /\ codes st a 0 /\ (forall i, st_n st <= i < zlen ws -> zn n0 a i = zn n0 ws i)).
Proof.
  intros W L. assert (Hn : 0 <= st_n st) by apply W.
  apply wp_for_up with (I := fun j a => zlen a = zlen ws /\
      (forall i, 0 <= i < j -> zn n0 a i = match zs (st_status st) i with ST_LOWER => nm1 | ST_UPPER => n1 | _ => n0 end) /\
      (forall i, j <= i < zlen ws -> zn n0 a i = zn n0 ws i)); [lia|split; [auto|split; [intros; lia|auto]]| |].
  - intros j a Hj (La & A & B). rewrite (arr_getStatus st j W Hj). cbn [bind]. apply wp_wr; [lia|]. rewrite zlen_zupd. split; [exact La|].
    split; intros i Hi; rewrite zn_zupd by lia; destruct (Z.eqb_spec i j); try lia.
    + subst. reflexivity.
    + apply A; lia.
    + apply B; lia.
  - intros a (La & A & B). split; [exact La|]. split; [|exact B]. intros i Hi. rewrite Z.add_0_l, A by lia.
    destruct (zs (st_status st) i); repeat split; intros; congruence.
Qed.

Theorem C60_export_QProblem (s : qp) (ws : arr) : st_arr (p_bounds s) -> st_arr (p_cons s) -> pV s + pC s <= zlen ws ->
  exists a, p_getWorkingSet (Some ws) s = Ok (SUCCESSFUL_RETURN, Some a) /\ zlen a = zlen ws /\
    codes (p_bounds s) a 0 /\ codes (p_cons s) a (pV s) /\ (forall i, pV s + pC s <= i < zlen ws -> zn n0 a i = zn n0 ws i).
Proof.
  intros WB WC L. assert (Hn : 0 <= pV s) by apply WB. assert (Hm : 0 <= pC s) by apply WC.
  destruct (wp_inv _ _ (export_loop (p_bounds s) ws WB ltac:(unfold pV, pC in *; lia))) as (a & E & La & A & A').
  unfold p_getWorkingSet, getWorkingSetBounds. change (nV (p_b s)) with (st_n (p_bounds s)). change (q_bounds (p_b s)) with (p_bounds s). rewrite E. cbn [bind].
  unfold at_off. destruct (Z.ltb_spec (pV s) 0); [lia|]. destruct (Z.ltb_spec (zlen a) (pV s)); [lia|]. cbn [orb].
  assert (Lk : zlen (skipn (Z.to_nat (pV s)) a) = zlen a - pV s) by (unfold zlen in *; rewrite skipn_length; lia).
  destruct (wp_inv _ _ (export_loop (p_cons s) (skipn (Z.to_nat (pV s)) a) WC ltac:(unfold pV, pC in *; lia))) as (b & Eb & Lb & B & B').
  unfold p_getWorkingSetConstraints. change (pC s) with (st_n (p_cons s)). rewrite Eb. cbn [bind].
  assert (Lf : zlen (firstn (Z.to_nat (pV s)) a) = pV s) by (unfold zlen in *; rewrite firstn_length; lia).
  exists (firstn (Z.to_nat (pV s)) a ++ b). split; [reflexivity|]. split; [rewrite zlen_app, Lf, Lb, Lk; lia|].
  assert (Z1 : forall i, 0 <= i < pV s -> zn n0 (firstn (Z.to_nat (pV s)) a ++ b) i = zn n0 a i).
  { intros i Hi. rewrite zn_app1 by lia. unfold zn. rewrite <- (firstn_skipn (Z.to_nat (pV s)) a) at 2. rewrite app_nth1; [reflexivity|]. unfold zlen in Lf. lia. }
  assert (Z2 : forall i, pV s <= i -> zn n0 (firstn (Z.to_nat (pV s)) a ++ b) i = zn n0 b (i - pV s)) by (intros i Hi; rewrite zn_app2 by lia; f_equal; lia).
  split; [intros i Hi; rewrite Z1 by (unfold pV in *; lia); exact (A i Hi)|].
  split; [intros i Hi; rewrite Z2 by lia; replace (pV s + i - pV s) with (0 + i) by lia; exact (B i Hi)|].
  intros i Hi. unfold pC in *. rewrite Z2 by lia. rewrite B' by lia. rewrite <- A' by (unfold pV in *; lia).
  unfold zn. rewrite <- (firstn_skipn (Z.to_nat (pV s)) a) at 2. rewrite app_nth2 by (unfold zlen in Lf; lia). f_equal. unfold zlen in Lf. lia.
Qed.
(** a null pointer is refused, QProblem.cpp:796 *)
Theorem C60_null_QProblem (s : qp) : p_getWorkingSet None s = Ok (RET_INVALID_ARGUMENTS, None).
Proof. reflexivity. Qed.
End Export.

(** ** Rebuilding a working set from the numbers, over the reals *)
Section Import.
Variables eps zero infty : R.
Notation N := (RNumT eps zero infty).
Notation arr := (list R).
(** the caller reads -1, 0, 1 and calls setupBound / setupConstraint *)
Definition read_code (v : R) : SubjectToStatus := if nltb (n := N) v 0%R then ST_LOWER else if nltb (n := N) 0%R v then ST_UPPER else ST_INACTIVE.
Definition rebuilt (k : stkind) (n off : Z) (a : arr) : res subjectTo :=
  for_up 0 n (fun i st => v <- rd a (off + i) ;; '(_, st) <- st_setup k st i (read_code v) ;; Ok st) (st_new n).

Theorem C60_import (st : subjectTo) l0 l1 k (a : arr) off : st_wf st l0 l1 -> shiftable st ->
  0 <= off -> off + st_n st <= zlen a -> codes (N := N) st a off ->
  exists st' m0 m1, rebuilt k (st_n st) off a = Ok st' /\ st_wf st' m0 m1 /\ st_n st' = st_n st /\ st_status st' = st_status st.
Proof.
  intros W SH Ho L C. pose proof (wf_n _ _ _ W) as Hn.
  assert (RC : forall i, 0 <= i < st_n st -> read_code (zn 0%R a (off + i)) = zs (st_status st) i).
  { intros i Hi. destruct (C i Hi) as (C1 & C2 & C3). rnum in C1. rnum in C2. rnum in C3. unfold read_code. rnum. rcar.

    destruct (SH i Hi) as [E|E].
    - rewrite E. rewrite C3 by congruence. destruct (Rltb_spec 0 0); [lra|reflexivity].
    - destruct (zs (st_status st) i) eqn:S; try discriminate E.
      + rewrite C1 by reflexivity. destruct (Rltb_spec (- (1)) 0); [reflexivity|lra].
      + rewrite C2 by reflexivity. destruct (Rltb_spec 1 0); [lra|]. destruct (Rltb_spec 0 1); [reflexivity|lra]. }
  assert (X : wp (rebuilt k (st_n st) off a) (fun st' => exists m0 m1, st_wf st' m0 m1 /\ st_n st' = st_n st /\ st_status st' = st_status st)).
  { unfold rebuilt. apply wp_for_up with (I := fun i st' => (exists m0 m1, st_wf st' m0 m1) /\ st_n st' = st_n st /\
       forall j, 0 <= j < st_n st -> zs (st_status st') j = if j <? i then zs (st_status st) j else ST_UNDEFINED); [lia| | |].
    - split; [exists [], []; now apply wf_new|]. unfold st_new, st_init. destruct (Z.ltb_spec (st_n st) 0); [lia|]. cbn [snd st_n st_status]. split; [reflexivity|].
      intros j Hj. destruct (Z.ltb_spec j 0); [lia|]. apply zn_repeat. lia.
    - intros i st' Hi ((m0 & m1 & W') & EN & S). rcar. rewrite (rd_ok 0%R) by lia. cbn [bind]. rewrite RC by lia.
      destruct (setup_ok k st' m0 m1 i (zs (st_status st) i) W') as (st2 & E2 & W2 & (N2 & _) & S2).
      + lia.
      + rewrite S by lia. rewrite Z.ltb_irrefl. discriminate.
      + rewrite S by lia. now rewrite Z.ltb_irrefl.
      + apply SH. lia.
      + rewrite E2. cbn [bind wp]. split; [eauto|]. split; [lia|]. intros j Hj. rewrite S2. pose proof (wf_stat _ _ _ W') as LS. rewrite zn_zupd by lia.
        destruct (Z.eqb_spec j i); destruct (Z.ltb_spec j (i + 1)); try lia; [now subst| |]; rewrite S by lia; destruct (Z.ltb_spec j i); try lia; reflexivity.
    - intros st' ((m0 & m1 & W') & EN & S). exists m0, m1. split; [exact W'|]. split; [exact EN|].
      apply (list_ext_zn ST_UNDEFINED); [rewrite (wf_stat _ _ _ W'), (wf_stat _ _ _ W); exact EN|]. intros j Hj. rewrite (wf_stat _ _ _ W') in Hj.
      rewrite S by lia. destruct (Z.ltb_spec j (st_n st)); [reflexivity|lia]. }
  destruct (wp_inv _ _ X) as (st' & E & m0 & m1 & A & B & D). exists st', m0, m1. auto.
Qed.
End Import.

(** ** Example: the solved problem of PropBudget *)
From Verif Require Import PropBudget.
Local Open Scope Z_scope.
Example C60_export_ex : exists k s, q_box = Ok (SUCCESSFUL_RETURN, k, s) /\ st_arr (p_bounds s) /\ st_arr (p_cons s) /\ pV s + pC s <= 5 /\
  shiftable (p_bounds s) /\ shiftable (p_cons s) /\
  p_getWorkingSet (N := QNum) (Some [7;7;7;7;7]%Q) s = Ok (SUCCESSFUL_RETURN, Some [0;0;1;1;7]%Q).
Proof.
  assert (T : match q_box with
              | Ok (SUCCESSFUL_RETURN, k, s) => st_n (p_bounds s) = 2 /\ st_n (p_cons s) = 2 /\
                  zlen (st_type (p_bounds s)) = 2 /\ zlen (st_type (p_cons s)) = 2 /\
                  st_status (p_bounds s) = [ST_INACTIVE; ST_INACTIVE] /\ st_status (p_cons s) = [ST_UPPER; ST_UPPER]
              | _ => False end) by (vm_compute; auto 10).
  destruct q_box as [[[[] k] s]| |]; try contradiction. exists k, s. destruct T as (B1 & C1 & B2 & C2 & B3 & C3).
  split; [reflexivity|]. split; [constructor; rewrite ?B1, ?B2, ?B3; easy|]. split; [constructor; rewrite ?C1, ?C2, ?C3; easy|].
  split; [unfold pV, pC; lia|].
  split; [intros i Hi; rewrite B3; assert (i = 0 \/ i = 1) as [-> | ->] by lia; left; reflexivity|].
  split; [intros i Hi; rewrite C3; assert (i = 0 \/ i = 1) as [-> | ->] by lia; right; reflexivity|].
  unfold p_getWorkingSet, getWorkingSetBounds, p_getWorkingSetConstraints, nV, pV, pC, st_getStatus.
  change (q_bounds (p_b s)) with (p_bounds s). rewrite B1, C1, B3, C3. reflexivity.
Qed.

Print Assumptions C60_export_QProblem.
Print Assumptions C60_import.
