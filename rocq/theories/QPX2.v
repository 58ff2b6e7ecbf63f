(** The rotation loops of QProblem: exact results. *)
From Verif Require Import Base Types Num Options Indexlist IndexlistProofs Loops RSum LinSpec SafeLib SubjectTo SubjectToProofs SubjectToProofs2
  Flipper PropFlipper Matrices MatLib MatSafe LinAlg PropLinAlg QProblemB QPBSafe QPBX1 QPBX2 QPBX3 QProblem QPX1.
Local Open Scope R_scope.

(** A loop that replaces the pairs (a[ax i], a[ay i]) by (F x y, G x y) *)
Lemma wp_pairs {T} (d : T) (F G : T -> T -> T) (ax ay : Z -> Z) lo hi body (a : list T) (Q : list T -> Prop) : (lo <= hi)%Z ->
  (forall i, (lo <= i < hi)%Z -> (0 <= ax i < zlen a)%Z /\ (0 <= ay i < zlen a)%Z /\ ax i <> ay i) ->
  (forall i j, (lo <= i < hi)%Z -> (lo <= j < hi)%Z -> i <> j -> ax i <> ax j /\ ay i <> ay j /\ ax i <> ay j) ->
  (forall i s, (lo <= i < hi)%Z -> zlen s = zlen a ->
     body i s = Ok (zupd (zupd s (ax i) (F (zn d s (ax i)) (zn d s (ay i)))) (ay i) (G (zn d s (ax i)) (zn d s (ay i))))) ->
  (forall a', zlen a' = zlen a ->
     (forall i, (lo <= i < hi)%Z -> zn d a' (ax i) = F (zn d a (ax i)) (zn d a (ay i)) /\ zn d a' (ay i) = G (zn d a (ax i)) (zn d a (ay i))) ->
     (forall k, (0 <= k)%Z -> (forall i, (lo <= i < hi)%Z -> k <> ax i /\ k <> ay i) -> zn d a' k = zn d a k) -> Q a') ->
  wp (for_up lo hi body a) Q.
Proof.
  intros Hlo IN DJ Hb HQ.
  apply wp_for_up with (I := fun j a' => zlen a' = zlen a /\
    (forall i, (lo <= i < j)%Z -> zn d a' (ax i) = F (zn d a (ax i)) (zn d a (ay i)) /\ zn d a' (ay i) = G (zn d a (ax i)) (zn d a (ay i))) /\
    (forall k, (0 <= k)%Z -> (forall i, (lo <= i < j)%Z -> k <> ax i /\ k <> ay i) -> zn d a' k = zn d a k)); [exact Hlo| | |].
  - split; [reflexivity|]. split; [intros; lia|reflexivity].
  - intros j a' Hj (L & V & U). rewrite Hb by auto. apply wp_ok. destruct (IN j Hj) as (I1 & I2 & I3). rewrite !zlen_zupd. split; [exact L|].
    assert (X : zn d a' (ax j) = zn d a (ax j)).
    { apply U; [lia|]. intros i Hi. destruct (DJ j i) as (P1 & P2 & P3), (DJ i j) as (P4 & P5 & P6); try lia. }
    assert (Y : zn d a' (ay j) = zn d a (ay j)).
    { apply U; [lia|]. intros i Hi. destruct (DJ j i) as (P1 & P2 & P3), (DJ i j) as (P4 & P5 & P6); try lia. }
    rewrite X, Y. split.
    + intros i Hi. destruct (Z.eq_dec i j) as [->|Ne].
      * split.
        -- rewrite zn_zupd_ne by (rewrite ?zlen_zupd; lia). now rewrite zn_zupd_eq by lia.
        -- now rewrite zn_zupd_eq by (rewrite zlen_zupd; lia).
      * destruct (V i ltac:(lia)) as (V1 & V2). destruct (IN i ltac:(lia)) as (I4 & I5 & I6).
        destruct (DJ j i) as (P1 & P2 & P3), (DJ i j) as (P4 & P5 & P6); try lia.
        rewrite !zn_zupd_ne by (rewrite ?zlen_zupd; lia). auto.
    + intros k Hk Hne. destruct (Hne j ltac:(lia)) as (N1 & N2). rewrite !zn_zupd_ne by (rewrite ?zlen_zupd; lia). apply U; auto. intros i Hi. apply Hne. lia.
  - intros a' (L & V & U). apply HQ; auto.
Qed.

Lemma ce_ne n p q p' q' : (0 <= p < n)%Z -> (0 <= p' < n)%Z -> (p <> p' \/ q <> q') -> (p + n * q <> p' + n * q')%Z.
Proof. intros A B C K. apply cm_inj in K; lia. Qed.

Section X2.
Variables eps zero infty : R.
Notation N := (RNumT eps zero infty).
Notation arr := (list R).
Hypothesis zero_nn : 0 <= zero.

Lemma rotQ_ok n FR l m c sn p (Q : arr) : zlen Q = (n * n)%Z -> NoDup l -> (forall v, In v l -> (0 <= v < n)%Z) -> m = zlen l ->
  (forall k, (0 <= k < m)%Z -> rd FR k = Ok (zn 0%Z l k)) -> (0 <= p)%Z -> (1 + p < n)%Z ->
  wp (rotQ (N := N) n FR m c sn p Q) (fun Q' => zlen Q' = zlen Q /\
    (forall v q, In v l -> (0 <= q < n)%Z -> ce n Q' v q = rot c sn p (ce n Q v) q) /\
    (forall v q, (0 <= v < n)%Z -> ~ In v l -> (0 <= q < n)%Z -> ce n Q' v q = ce n Q v q)).
Proof.
  intros LQ ND R -> RD Hp1 Hp2. unfold rotQ.
  assert (IV : forall k, (0 <= k < zlen l)%Z -> (0 <= zn 0%Z l k < n)%Z) by (intros; apply R, zn_In; lia).
  apply (wp_pairs 0 (fun x y => c * x + sn * y) (fun x y => - sn * x + c * y) (fun k => zn 0 l k + n * (1 + p))%Z (fun k => zn 0 l k + n * p)%Z).
  - unfold zlen. lia.
  - intros i Hi. specialize (IV i Hi). split; [apply (ce_in n Q n); lia|]. split; [apply (ce_in n Q n); lia|]. apply ce_ne; lia.
  - intros i j Hi Hj Ne. pose proof (IV i Hi). pose proof (IV j Hj). assert (zn 0 l i <> zn 0 l j)%Z. { intros E. apply Ne. apply (NoDup_zz l); auto; lia. }
    split; [|split]; apply ce_ne; lia.
  - intros i s Hi L. specialize (IV i Hi). rewrite RD by lia. cbn [bind].
    rewrite (rd_ok 0) by (rewrite L; apply (ce_in n Q n); lia). cbn [bind]. rewrite (rd_ok 0) by (rewrite L; apply (ce_in n Q n); lia). cbn [bind].
    unfold applyGivens. rnum. rewrite wr_ok by (rewrite L; apply (ce_in n Q n); lia). cbn [bind]. rewrite wr_ok by (rewrite zlen_zupd, L; apply (ce_in n Q n); lia).
    reflexivity.
  - intros Q' L' V U. split; [exact L'|]. split.
    + intros v q Hv Hq. apply (In_zn 0%Z) in Hv as (k & Hk & <-). unfold rot. destruct (Z.eqb_spec q (1 + p)) as [->|]; [apply V; lia|].
      destruct (Z.eqb_spec q p) as [->|]; [apply V; lia|]. unfold ce. pose proof (IV k Hk). apply U; [nia|].
      intros i Hi. pose proof (IV i Hi). split; apply ce_ne; lia.
    + intros v q Hv Nv Hq. unfold ce. apply U; [nia|]. intros i Hi. pose proof (IV i Hi). assert (v <> zn 0 l i)%Z by (intros ->; apply Nv, zn_In; lia).
      split; apply ce_ne; lia.
Qed.

Lemma rotR_ok n m c sn p (Ra : arr) : zlen Ra = (n * n)%Z -> (0 <= m <= n)%Z -> (0 <= p)%Z -> (1 + p < n)%Z ->
  wp (rotR (N := N) n m c sn p Ra) (fun R' => zlen R' = zlen Ra /\
    (forall i q, (0 <= i < m)%Z -> (0 <= q < n)%Z -> ce n R' i q = rot c sn p (ce n Ra i) q) /\
    (forall i q, (m <= i < n)%Z -> (0 <= q < n)%Z -> ce n R' i q = ce n Ra i q)).
Proof.
  intros LR Hm Hp1 Hp2. unfold rotR.
  apply (wp_pairs 0 (fun x y => c * x + sn * y) (fun x y => - sn * x + c * y) (fun k => k + n * (1 + p))%Z (fun k => k + n * p)%Z).
  - lia.
  - intros i Hi. split; [apply (ce_in n Ra n); lia|]. split; [apply (ce_in n Ra n); lia|]. apply ce_ne; lia.
  - intros i j Hi Hj Ne. split; [|split]; apply ce_ne; lia.
  - intros i s Hi L.
    rewrite (rd_ok 0) by (rewrite L; apply (ce_in n Ra n); lia). cbn [bind]. rewrite (rd_ok 0) by (rewrite L; apply (ce_in n Ra n); lia). cbn [bind].
    unfold applyGivens. rnum. rewrite wr_ok by (rewrite L; apply (ce_in n Ra n); lia). cbn [bind]. rewrite wr_ok by (rewrite zlen_zupd, L; apply (ce_in n Ra n); lia).
    reflexivity.
  - intros R' L' V U. split; [exact L'|]. split.
    + intros i q Hi Hq. unfold rot. destruct (Z.eqb_spec q (1 + p)) as [->|]; [apply V; lia|].
      destruct (Z.eqb_spec q p) as [->|]; [apply V; lia|]. unfold ce. apply U; [nia|]. intros k Hk. split; apply ce_ne; lia.
    + intros i q Hi Hq. unfold ce. apply U; [nia|]. intros k Hk. split; apply ce_ne; lia.
Qed.

Lemma pivot_ok j (w : arr) : (0 <= j)%Z -> (1 + j < zlen w)%Z ->
  wp (pivot (N := N) j w) (fun '(w', c, sn) => zlen w' = zlen w /\ c * c + sn * sn = 1 /\
     (forall q, (0 <= q)%Z -> zn 0 w' q = rot c sn j (zn 0 w) q) /\ (zero = 0 -> zn 0 w' j = 0) /\
     (zero = 0 -> zn 0 w j <> 0 -> sn <> 0)).
Proof.
  intros Hj Hl. unfold pivot. replace (j + 1)%Z with (1 + j)%Z by lia. rewrite (rd_ok 0) by lia. cbn [bind]. rewrite (rd_ok 0) by lia. cbn [bind].
  destruct (computeGivens (N := N) (zn 0 w (1 + j)) (zn 0 w j)) as [[[x' y'] c] sn] eqn:EG.
  apply C28_computeGivens in EG as (CS & AP & _ & NR & Z0 & Z1); [|exact zero_nn].
  unfold applyGivens in AP. rnum in AP. injection AP as AP1 AP2.
  change (list N) with arr in *; change (car N) with R in *; rcar; rewrite (@wr_ok R) by lia. cbn [bind]. rewrite (@wr_ok R) by (rewrite zlen_zupd; lia). apply wp_ok. rewrite !zlen_zupd.
  assert (Y0 : zero = 0 -> y' = 0).
  { intros Ez. destruct (Rle_lt_dec (Rabs (zn 0 w j)) zero) as [Le|Lt]; [|auto]. destruct (Z1 Le) as (_ & _ & ->).
    rewrite Ez in Le. pose proof (Rabs_pos (zn 0 w j)). assert (E : Rabs (zn 0 w j) = 0) by lra. destruct (Req_dec (zn 0 w j) 0) as [|Ne]; [auto|]. apply Rabs_no_R0 in Ne. contradiction. }
  split; [reflexivity|]. split; [exact CS|]. split; [|split].
  - intros q Hq. unfold rot. destruct (Z.eqb_spec q (1 + j)) as [->|].
    + rewrite zn_zupd_ne by (rewrite ?zlen_zupd; lia). rewrite zn_zupd_eq by lia. congruence.
    + destruct (Z.eqb_spec q j) as [->|].
      * rewrite zn_zupd_eq by (rewrite zlen_zupd; lia). congruence.
      * now rewrite !zn_zupd_ne by (rewrite ?zlen_zupd; lia).
  - intros Ez. rewrite zn_zupd_eq by (rewrite zlen_zupd; lia). auto.
  - intros Ez Nw ->. rewrite Y0 in AP2 by exact Ez. assert (c * zn 0 w j = 0) by lra. apply Nw. nra.
Qed.
End X2.
