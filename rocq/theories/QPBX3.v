(** Exact updates of the Cholesky factor of the free block. *)
From Verif Require Import Base Types Num Options Indexlist IndexlistProofs Loops RSum LinSpec SafeLib SubjectTo SubjectToProofs SubjectToProofs2
  Flipper PropFlipper Matrices MatLib MatSafe LinAlg PropLinAlg QProblemB QPBSafe QPBX1 QPBX2.
Local Open Scope R_scope.

(** ** Rotations of two rows *)
Lemma rot_pair (c s a b a' b' : R) : c * c + s * s = 1 ->
  (c * a + s * b) * (c * a' + s * b') + (- s * a + c * b) * (- s * a' + c * b') = a * a' + b * b'.
Proof. intros E. replace (a * a' + b * b') with ((c * c + s * s) * (a * a' + b * b')) by (rewrite E; ring). ring. Qed.

Lemma rsum_two (i m : Z) f : (1 <= i < m)%Z -> rsum 0 m f = rsum 0 (i - 1) f + (f (i - 1)%Z + f i) + rsum (i + 1) m f.
Proof.
  intros H. rewrite (rsum_split 0 (i - 1) m) by lia. rewrite (rsum_split (i - 1) (i + 1) m) by lia.
  replace (rsum (i - 1) (i + 1) f) with (f (i - 1)%Z + f i); [ring|].
  rewrite rsum_first by lia. replace (i - 1 + 1)%Z with i by lia. rewrite rsum_first by lia. rewrite rsum_empty by lia. ring.
Qed.

Lemma rot_gram (m i q q' : Z) (V V' : Z -> Z -> R) c s : (1 <= i < m)%Z -> c * c + s * s = 1 ->
  (forall p, (0 <= p < m)%Z -> p <> (i - 1)%Z -> p <> i -> V' p q = V p q /\ V' p q' = V p q') ->
  V' (i - 1)%Z q = c * V (i - 1)%Z q + s * V i q -> V' i q = - s * V (i - 1)%Z q + c * V i q ->
  V' (i - 1)%Z q' = c * V (i - 1)%Z q' + s * V i q' -> V' i q' = - s * V (i - 1)%Z q' + c * V i q' ->
  rsum 0 m (fun p => V' p q * V' p q') = rsum 0 m (fun p => V p q * V p q').
Proof.
  intros Hi E U A B A' B'. rewrite !(rsum_two i m) by lia. rewrite A, B, A', B', rot_pair by exact E.
  f_equal; [f_equal|]; apply rsum_ext; intros p Hp; destruct (U p) as (-> & ->); auto; lia.
Qed.

Section X3.
Variables eps zero infty : R.
Notation N := (RNumT eps zero infty).
Notation arr := (list R).
Hypothesis zero_nn : 0 <= zero.

(** entry (p,q) of a matrix stored column by column *)
Definition ce (n : Z) (a : arr) (p q : Z) : R := zn 0 a (p + n * q).

Lemma ce_upd n (a : arr) p q p' q' v : (0 <= p < n)%Z -> (0 <= p' < n)%Z -> (0 <= q)%Z -> (0 <= q')%Z -> (p + n * q < zlen a)%Z ->
  ce n (zupd a (p + n * q) v) p' q' = if ((p' =? p) && (q' =? q))%Z then v else ce n a p' q'.
Proof.
  intros Hp Hp' Hq Hq' Hl. unfold ce. destruct (Z.eqb_spec p' p) as [E|E], (Z.eqb_spec q' q) as [E'|E']; cbn [andb].
  - subst. rewrite zn_zupd_eq; [reflexivity|nia].
  - rewrite zn_zupd_ne; [reflexivity|nia|nia|]. intros K. apply cm_inj in K; [|lia|lia]. lia.
  - rewrite zn_zupd_ne; [reflexivity|nia|nia|]. intros K. apply cm_inj in K; [|lia|lia]. lia.
  - rewrite zn_zupd_ne; [reflexivity|nia|nia|]. intros K. apply cm_inj in K; [|lia|lia]. lia.
Qed.
Lemma ce_in n (a : arr) m p q : (m <= n)%Z -> zlen a = (n * n)%Z -> (0 <= p < m)%Z -> (0 <= q < m)%Z -> (0 <= p + n * q < zlen a)%Z.
Proof. intros Hm L Hp Hq. rewrite L. assert (n * q <= n * (m - 1))%Z by (apply Z.mul_le_mono_nonneg_l; lia). nia. Qed.

(** R holds a factor of the m x m matrix A *)
Definition factor (n m : Z) (a : arr) (A : Z -> Z -> R) : Prop :=
  gram m (triu a n) A /\ forall i, (0 <= i < m)%Z -> ce n a i i <> 0.

Lemma triu_upper m n (a : arr) : upper_tri m (triu a n).
Proof. intros i j H1 H2. unfold triu. destruct (Z.leb_spec i j); [lia|reflexivity]. Qed.
Lemma triu_diag n (a : arr) i : triu a n i i = ce n a i i.
Proof. unfold triu. now rewrite Z.leb_refl. Qed.

(** the meaningful part of column q while column k is being deleted, after the rotations k+1 .. i-1 *)
Definition top (k i q : Z) : Z := if ((k <? q) && (q <? i))%Z then (q - 1)%Z else q.
Definition part (n k i : Z) (a : arr) (p q : Z) : R := if (p <=? top k i q)%Z then ce n a p q else 0.

Definition del_inv (n m k : Z) (a0 : arr) (A : Z -> Z -> R) (i : Z) (a : arr) : Prop :=
  zlen a = zlen a0 /\
  (forall p q, (0 <= p < m)%Z -> (0 <= q < m)%Z -> (i <= p)%Z -> ce n a p q = ce n a0 p q) /\
  (forall p q, (0 <= p < m)%Z -> (0 <= q < m)%Z -> (q <= k)%Z -> ce n a p q = ce n a0 p q) /\
  (forall q q', (0 <= q < m)%Z -> (0 <= q' < m)%Z -> q <> k -> q' <> k -> rsum 0 m (fun p => part n k i a p q * part n k i a p q') = A q q') /\
  (forall q, (k < q < i)%Z -> ce n a (q - 1) q <> 0).

Lemma del_givens n m k (a0 : arr) A : (m <= n)%Z -> zlen a0 = (n * n)%Z -> (0 <= k < m)%Z -> factor n m a0 A ->
  (forall i, (k < i < m)%Z -> zero < Rabs (ce n a0 i i)) ->
  wp (for_up (k + 1) m (fun i a =>
         x <- rd a (i - 1 + n * i) ;; b <- rd a (i + n * i) ;;
         let '(a', b', c, sn) := computeGivens (N := N) x b in
         a <- wr a (i - 1 + n * i) a' ;; a <- wr a (i + n * i) b' ;;
         for_up (i + 1) m (fun j a =>
           p <- rd a (i - 1 + n * j) ;; q <- rd a (i + n * j) ;;
           let '(p', q') := applyGivens (N := N) c sn p q in
           a <- wr a (i - 1 + n * j) p' ;; wr a (i + n * j) q') a) a0) (del_inv n m k a0 A m).
Proof.
  intros Hm L0 Hk (G & D) Pv. apply wp_for_up with (I := del_inv n m k a0 A); [lia| | |auto].
  - split; [reflexivity|]. split; [reflexivity|]. split; [reflexivity|]. split; [|intros; lia].
    intros q q' Hq Hq' _ _. rewrite <- (G q q' Hq Hq'). apply rsum_ext. intros p Hp. unfold part, top, triu.
    destruct (Z.ltb_spec k q), (Z.ltb_spec q (k + 1)), (Z.ltb_spec k q'), (Z.ltb_spec q' (k + 1)); try lia; reflexivity.
  - intros i a Hi (L & LO & LK & GR & DI). assert (IN : forall (a : arr) p q, zlen a = zlen a0 -> (0 <= p < m)%Z -> (0 <= q < m)%Z -> (0 <= p + n * q < zlen a)%Z).
    { intros a' p q E Hp Hq. apply (ce_in n a' m); auto. now rewrite E. }
    rewrite (rd_ok 0) by (apply IN; lia). cbn [bind]. rewrite (rd_ok 0) by (apply IN; lia). cbn [bind].
    destruct (computeGivens (N := N) (zn 0 a (i - 1 + n * i)) (zn 0 a (i + n * i))) as [[[a' b'] c] sn] eqn:EG.
    apply C28_computeGivens in EG as (CS & AP & _ & NR & Z0 & _); [|exact zero_nn].
    assert (EB : zn 0 a (i + n * i) = ce n a0 i i) by (apply LO; lia). specialize (Z0 ltac:(rewrite EB; apply Pv; lia)). subst b'.
    assert (A0 : a' <> 0). { intros ->. specialize (Pv i ltac:(lia)). rewrite EB in NR. assert (ce n a0 i i = 0) by nra. rewrite H, Rabs_R0 in Pv. lra. }
    unfold applyGivens in AP. rnum in AP. injection AP as AP1 AP2. clear NR.
    rewrite wr_ok by (apply IN; lia). cbn [bind]. rewrite wr_ok by (rewrite zlen_zupd; apply IN; lia). cbn [bind].
    set (a1 := zupd (zupd a (i - 1 + n * i) a') (i + n * i) 0).
    assert (E1 : forall p q, (0 <= p < n)%Z -> (0 <= q < n)%Z -> ce n a1 p q =
       if (q =? i)%Z then (if (p =? i)%Z then 0 else if (p =? i - 1)%Z then a' else ce n a p q) else ce n a p q).
    { intros p q Hp Hq. unfold a1. rewrite ce_upd; [|lia|lia|lia|lia|rewrite zlen_zupd; apply IN; lia]. rewrite ce_upd; [|lia|lia|lia|lia|apply IN; lia].
      destruct (Z.eqb_spec q i), (Z.eqb_spec p i), (Z.eqb_spec p (i - 1)); cbn [andb]; try reflexivity; lia. }
    assert (L1 : zlen a1 = zlen a0) by (unfold a1; now rewrite !zlen_zupd).
    apply wp_for_up with (I := fun j a2 => zlen a2 = zlen a0 /\ forall p q, (0 <= p < n)%Z -> (0 <= q < n)%Z -> ce n a2 p q =
       if ((i <? q) && (q <? j))%Z then (if (p =? i - 1)%Z then c * ce n a (i - 1) q + sn * ce n a i q else
          if (p =? i)%Z then - sn * ce n a (i - 1) q + c * ce n a i q else ce n a p q) else ce n a1 p q); [lia| | |].
    + split; [exact L1|]. intros p q Hp Hq. destruct (Z.ltb_spec i q), (Z.ltb_spec q (i + 1)); try lia; reflexivity.
    + intros j a2 Hj (L2 & V2). rewrite (rd_ok 0) by (apply IN; lia). cbn [bind]. rewrite (rd_ok 0) by (apply IN; lia). cbn [bind].
      unfold applyGivens. rnum. rewrite wr_ok by (apply IN; lia). cbn [bind]. rewrite wr_ok by (rewrite zlen_zupd; apply IN; lia). apply wp_ok.
      split; [now rewrite !zlen_zupd|]. intros p q Hp Hq.
      change (zn 0 a2 (i - 1 + n * j)) with (ce n a2 (i - 1) j). change (zn 0 a2 (i + n * j)) with (ce n a2 i j).
      assert (X1 : ce n a2 (i - 1) j = ce n a (i - 1) j).
      { rewrite V2 by lia. destruct (Z.ltb_spec j j); [lia|]. rewrite andb_false_r. rewrite E1 by lia. destruct (Z.eqb_spec j i); [lia|reflexivity]. }
      assert (X2 : ce n a2 i j = ce n a i j).
      { rewrite V2 by lia. destruct (Z.ltb_spec j j); [lia|]. rewrite andb_false_r. rewrite E1 by lia. destruct (Z.eqb_spec j i); [lia|reflexivity]. }
      rewrite ce_upd; [|lia|lia|lia|lia|rewrite zlen_zupd; apply IN; lia]. rewrite ce_upd; [|lia|lia|lia|lia|apply IN; lia]. rewrite X1, X2, V2 by lia.
      destruct (Z.eqb_spec q j) as [->|].
      * destruct (Z.ltb_spec j j), (Z.ltb_spec j (j + 1)), (Z.ltb_spec i j); try lia. cbn [andb]. rewrite !andb_true_r.
        destruct (Z.eqb_spec p i), (Z.eqb_spec p (i - 1)); try lia; try reflexivity. rewrite E1 by lia. destruct (Z.eqb_spec j i); [lia|reflexivity].
      * rewrite !andb_false_r. destruct (Z.ltb_spec q j), (Z.ltb_spec q (j + 1)); try lia; reflexivity.
    + intros a2 (L2 & V2). split; [exact L2|].
      assert (E2 : forall p q, (0 <= p < m)%Z -> (0 <= q < m)%Z -> ce n a2 p q = if (i <? q)%Z then
          (if (p =? i - 1)%Z then c * ce n a (i - 1) q + sn * ce n a i q else if (p =? i)%Z then - sn * ce n a (i - 1) q + c * ce n a i q else ce n a p q)
          else if (q =? i)%Z then (if (p =? i)%Z then 0 else if (p =? i - 1)%Z then a' else ce n a p q) else ce n a p q).
      { intros p q Hp Hq. rewrite V2 by lia. destruct (Z.ltb_spec i q), (Z.ltb_spec q m); cbn [andb]; try lia; try reflexivity. now rewrite E1 by lia. }
      split; [|split; [|split]].
      * intros p q Hp Hq Hip. rewrite E2 by lia. rewrite <- LO by lia.
        destruct (Z.ltb_spec i q), (Z.eqb_spec q i), (Z.eqb_spec p (i - 1)), (Z.eqb_spec p i); try lia; reflexivity.
      * intros p q Hp Hq Hqk. rewrite E2 by lia. rewrite <- LK by lia. destruct (Z.ltb_spec i q), (Z.eqb_spec q i); try lia; reflexivity.
      * intros q q' Hq Hq' Hk1 Hk2. rewrite <- (GR q q') by auto.
        assert (ROW : forall q, (0 <= q < m)%Z -> q <> k ->
            (forall p, (0 <= p < m)%Z -> p <> (i - 1)%Z -> p <> i -> part n k (i + 1) a2 p q = part n k i a p q) /\
            part n k (i + 1) a2 (i - 1)%Z q = c * part n k i a (i - 1)%Z q + sn * part n k i a i q /\
            part n k (i + 1) a2 i q = - sn * part n k i a (i - 1)%Z q + c * part n k i a i q).
        { clear q q' Hq Hq' Hk1 Hk2. intros q Hq Nk. unfold part, top. split; [|split].
          - intros p Hp N1 N2. rewrite E2 by lia. destruct (Z.ltb_spec k q), (Z.ltb_spec q i), (Z.ltb_spec q (i + 1)); cbn [andb]; try lia;
              destruct (Z.ltb_spec i q), (Z.eqb_spec q i), (Z.eqb_spec p (i - 1)), (Z.eqb_spec p i); try lia; try reflexivity.
            subst q. destruct (Z.leb_spec p (i - 1)), (Z.leb_spec p i); try lia; reflexivity.
          - rewrite !E2 by lia. destruct (Z.ltb_spec k q), (Z.ltb_spec q i), (Z.ltb_spec q (i + 1)); cbn [andb]; try lia;
              destruct (Z.ltb_spec i q), (Z.eqb_spec q i), (Z.eqb_spec (i - 1) (i - 1)), (Z.eqb_spec (i - 1) i); try lia.
            + destruct (Z.leb_spec (i - 1) (q - 1)), (Z.leb_spec i (q - 1)); try lia. ring.
            + subst q. destruct (Z.leb_spec (i - 1) (i - 1)), (Z.leb_spec (i - 1) i), (Z.leb_spec i i); try lia. symmetry. exact AP1.
            + destruct (Z.leb_spec (i - 1) q), (Z.leb_spec i q); try lia. reflexivity.
            + destruct (Z.leb_spec (i - 1) q), (Z.leb_spec i q); try lia. ring.
          - rewrite !E2 by lia. destruct (Z.ltb_spec k q), (Z.ltb_spec q i), (Z.ltb_spec q (i + 1)); cbn [andb]; try lia;
              destruct (Z.ltb_spec i q), (Z.eqb_spec q i), (Z.eqb_spec i (i - 1)), (Z.eqb_spec i i); try lia.
            + destruct (Z.leb_spec (i - 1) (q - 1)), (Z.leb_spec i (q - 1)); try lia. ring.
            + subst q. destruct (Z.leb_spec i (i - 1)), (Z.leb_spec (i - 1) i), (Z.leb_spec i i); try lia. symmetry. exact AP2.
            + destruct (Z.leb_spec (i - 1) q), (Z.leb_spec i q); try lia. reflexivity.
            + destruct (Z.leb_spec (i - 1) q), (Z.leb_spec i q); try lia. ring. }
        destruct (ROW q Hq Hk1) as (R1 & R2 & R3), (ROW q' Hq' Hk2) as (S1 & S2 & S3).
        apply (rot_gram m i q q' _ _ c sn); auto; lia.
      * intros q Hq. destruct (Z.eq_dec q i) as [->|].
        -- rewrite E2 by lia. destruct (Z.ltb_spec i i), (Z.eqb_spec i i), (Z.eqb_spec (i - 1) i), (Z.eqb_spec (i - 1) (i - 1)); try lia. exact A0.
        -- rewrite E2 by lia. destruct (Z.ltb_spec i q), (Z.eqb_spec q i); try lia. apply DI. lia.
Qed.

(** C39: deleting column k of the factor *)
Lemma chol_delete_ok n m k (a0 : arr) A : (m <= n)%Z -> zlen a0 = (n * n)%Z -> (0 <= k < m)%Z -> factor n m a0 A ->
  (forall i, (k < i < m)%Z -> zero < Rabs (ce n a0 i i)) ->
  wp (chol_delete (N := N) n m k a0) (fun a => zlen a = (n * n)%Z /\
    factor n (m - 1) a (fun p q => A (if (p <? k)%Z then p else p + 1)%Z (if (q <? k)%Z then q else q + 1)%Z)).
Proof.
  intros Hm L0 Hk F Pv. unfold chol_delete. apply wp_bind. eapply wp_mono; [apply (del_givens n m k a0 A); auto|].
  intros a1 (L1 & LO & LK & GR & DI). rewrite L0 in L1.
  assert (IN : forall (a : arr) p q, zlen a = (n * n)%Z -> (0 <= p < m)%Z -> (0 <= q < m)%Z -> (0 <= p + n * q < zlen a)%Z).
  { intros a' p q E Hp Hq. apply (ce_in n a' m); auto. }
  apply wp_bind. apply wp_for_up with (I := fun i a => zlen a = (n * n)%Z /\ forall p q, (0 <= p < n)%Z -> (0 <= q < m)%Z -> ce n a p q =
      if ((p <? i) && (k <=? q) && (q <? m - 1))%Z then ce n a1 p (q + 1) else ce n a1 p q); [lia| | |].
  - split; [exact L1|]. intros p q Hp Hq. destruct (Z.ltb_spec p 0); [lia|reflexivity].
  - intros i a Hi (L & V). apply wp_for_up with (I := fun j a' => zlen a' = (n * n)%Z /\ forall p q, (0 <= p < n)%Z -> (0 <= q < m)%Z -> ce n a' p q =
      (if ((p =? i) && (k <=? q) && (q <? j - 1))%Z then ce n a p (q + 1) else ce n a p q)); [lia| | |].
    + split; [exact L|]. intros p q Hp Hq. destruct (Z.leb_spec k q), (Z.ltb_spec q (k + 1 - 1)); try lia; now rewrite ?andb_false_r.
    + intros j a' Hj (L' & V'). rewrite (rd_ok 0) by (apply IN; auto; lia). cbn [bind]. rewrite wr_ok by (apply IN; auto; lia). apply wp_ok.
      split; [now rewrite zlen_zupd|]. intros p q Hp Hq. rewrite ce_upd; [|lia|lia|lia|lia|apply IN; auto; lia].
      change (zn 0 a' (i + n * j)) with (ce n a' i j). rewrite V' by lia. rewrite V' by lia.
      destruct (Z.ltb_spec j (j - 1)); [lia|]. rewrite andb_false_r.
      destruct (Z.eqb_spec p i) as [->|], (Z.eqb_spec q (j - 1)) as [->|]; cbn [andb].
      * destruct (Z.leb_spec k (j - 1)), (Z.ltb_spec (j - 1) (j + 1 - 1)); try lia. cbn [andb]. f_equal. lia.
      * destruct (Z.leb_spec k q), (Z.ltb_spec q (j + 1 - 1)), (Z.ltb_spec q (j - 1)); try lia; reflexivity.
      * reflexivity.
      * reflexivity.
    + intros a' (L' & V'). split; [exact L'|]. intros p q Hp Hq. rewrite V' by lia.
      destruct (Z.eqb_spec p i) as [->|]; cbn [andb].
      * destruct (Z.ltb_spec i (i + 1)); [|lia]. cbn [andb]. destruct (Z.leb_spec k q), (Z.ltb_spec q (m - 1)); cbn [andb]; rewrite V by lia; destruct (Z.ltb_spec i i); try lia; reflexivity.
      * rewrite V by lia. destruct (Z.ltb_spec p i), (Z.ltb_spec p (i + 1)); try lia; reflexivity.
  - intros a2 (L2 & V2). apply wp_for_up with (I := fun i a => zlen a = (n * n)%Z /\ forall p q, (0 <= p < n)%Z -> (0 <= q < m - 1)%Z -> ce n a p q = ce n a2 p q); [lia| | |].
    + auto.
    + intros i a Hi (L & V). rewrite wr_ok by (apply IN; auto; lia). apply wp_ok. split; [now rewrite zlen_zupd|]. intros p q Hp Hq.
      rewrite ce_upd; [|lia|lia|lia|lia|apply IN; auto; lia]. destruct (Z.eqb_spec q (m - 1)); [lia|]. rewrite andb_false_r. auto.
    + intros a (L & V). split; [exact L|].
      set (sg := fun q => (if (q <? k)%Z then q else q + 1)%Z).
      assert (SG : forall q, (0 <= q < m - 1)%Z -> (0 <= sg q < m)%Z /\ sg q <> k) by (intros q Hq; unfold sg; destruct (Z.ltb_spec q k); lia).
      assert (E : forall p q, (0 <= p < m - 1)%Z -> (0 <= q < m - 1)%Z -> ce n a p q = ce n a1 p (sg q)).
      { intros p q Hp Hq. rewrite V, V2 by lia. unfold sg. destruct (Z.ltb_spec p (m - 1)), (Z.leb_spec k q), (Z.ltb_spec q (m - 1)), (Z.ltb_spec q k); try lia; reflexivity. }
      assert (T : forall p q, (0 <= p < m - 1)%Z -> (0 <= q < m - 1)%Z -> triu a n p q = part n k m a1 p (sg q)).
      { intros p q Hp Hq. unfold triu, part, top. change (zn 0 a (p + n * q)) with (ce n a p q). rewrite E by lia. unfold sg.
        destruct (Z.ltb_spec q k).
        - destruct (Z.ltb_spec k q); [lia|]. cbn [andb]. reflexivity.
        - destruct (Z.ltb_spec k (q + 1)), (Z.ltb_spec (q + 1) m); try lia. cbn [andb]. now replace (q + 1 - 1)%Z with q by lia. }
      split.
      * intros q q' Hq Hq'. destruct (SG q Hq) as [S1 S2], (SG q' Hq') as [S3 S4]. change (rsum 0 (m - 1) (fun p => triu a n p q * triu a n p q') = A (sg q) (sg q')).
        rewrite <- (GR (sg q) (sg q')) by auto. rewrite (rsum_split 0 (m - 1) m) by lia. rewrite (rsum_0 (m - 1) m).
        -- rewrite Rplus_0_r. apply rsum_ext. intros p Hp. now rewrite !T by lia.
        -- intros p Hp. unfold part at 1, top. assert (p = m - 1)%Z by lia. subst p.
           replace (_ <=? _)%Z with false; [ring|]. symmetry. apply Z.leb_gt. destruct (Z.ltb_spec k (sg q)), (Z.ltb_spec (sg q) m); cbn [andb]; try lia.
      * intros i Hi. rewrite E by lia. unfold sg. destruct (Z.ltb_spec i k).
        -- rewrite LK by lia. apply (proj2 F). lia.
        -- replace i with (i + 1 - 1)%Z at 1 by lia. apply DI. lia.
Qed.
End X3.
