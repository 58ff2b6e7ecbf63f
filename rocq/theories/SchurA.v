(** The rotation loops of the Schur complement's QR factorisation, as operations on matrices. *)
From Verif Require Import Base Types Num RSum LinSpec LinAlg PropLinAlg QPX7 Schur Det SchurF.
Local Open Scope R_scope.

Section A.
Variables eps zero infty : R.
Notation N := (RNumT eps zero infty).
Notation arr := (list R).
Hypothesis zero_0 : zero = 0.

Definition me (m : Z) (a : arr) (i j : Z) : R := zn 0 a (i + j * m)%Z.
Lemma me_in m i j : (0 <= i < m)%Z -> (0 <= j < m)%Z -> (0 <= i + j * m < m * m)%Z.
Proof. intros. nia. Qed.
Lemma me_eq m i j a b : (0 <= i < m)%Z -> (0 <= a < m)%Z -> (i + j * m = a + b * m)%Z -> i = a /\ j = b.
Proof. intros Hi Ha E. assert (j = b) by nia. subst. lia. Qed.
Lemma me_upd m (A : arr) a b v i j : (0 <= a < m)%Z -> (0 <= b < m)%Z -> (0 <= i < m)%Z -> (0 <= j < m)%Z -> zlen A = (m * m)%Z ->
  me m (zupd A (a + b * m) v) i j = if ((i =? a) && (j =? b))%Z then v else me m A i j.
Proof.
  intros Ha Hb Hi Hj L. unfold me. rewrite zn_zupd by (try rewrite L; try apply me_in; try lia; pose proof (me_in m i j); lia).
  destruct (Z.eqb_spec (i + j * m) (a + b * m)) as [E|E].
  - apply me_eq in E as [-> ->]; try lia. now rewrite !Z.eqb_refl.
  - destruct (Z.eqb_spec i a), (Z.eqb_spec j b); subst; cbn [andb]; congruence.
Qed.
Lemma rd_me m (A : arr) i j : (0 <= i < m)%Z -> (0 <= j < m)%Z -> zlen A = (m * m)%Z -> rd A (i + j * m) = Ok (me m A i j).
Proof. intros Hi Hj L. apply rd_ok. rewrite L. now apply me_in. Qed.
Lemma wr_me m (A : arr) i j v : (0 <= i < m)%Z -> (0 <= j < m)%Z -> zlen A = (m * m)%Z -> wr A (i + j * m) v = Ok (zupd A (i + j * m) v).
Proof. intros Hi Hj L. apply wr_ok. rewrite L. now apply me_in. Qed.

(** one rotation of two entries *)
Lemma rotv_ok m c s (A : arr) i j k l : (0 <= i < m)%Z -> (0 <= j < m)%Z -> (0 <= k < m)%Z -> (0 <= l < m)%Z -> zlen A = (m * m)%Z ->
  rotv (N := N) c s A (i + j * m) (k + l * m) = Ok (zupd (zupd A (i + j * m) (c * me m A i j + s * me m A k l)) (k + l * m) (- s * me m A i j + c * me m A k l)).
Proof.
  intros. unfold rotv. rcar. rewrite !rd_me by assumption. cbn [bind]. unfold applyGivens. rnum. rewrite wr_me by assumption. cbn [bind]. apply wr_me; try assumption. now rewrite zlen_zupd.
Qed.
(** rows p and q, columns lo..hi-1 *)
Lemma rows_ok m c s p q lo hi (A : arr) : p <> q -> (0 <= p < m)%Z -> (0 <= q < m)%Z -> (0 <= lo <= hi)%Z -> (hi <= m)%Z -> zlen A = (m * m)%Z ->
  wp (for_up lo hi (fun j A => rotv (N := N) c s A (p + j * m) (q + j * m)) A) (fun A' => zlen A' = zlen A /\
    forall i j, (0 <= i < m)%Z -> (0 <= j < m)%Z -> me m A' i j = if ((lo <=? j) && (j <? hi))%Z then rotrow p q c s (me m A) i j else me m A i j).
Proof.
  intros D Hp Hq Hl Hh L.
  apply wp_for_up with (I := fun k A' => zlen A' = zlen A /\
    forall i j, (0 <= i < m)%Z -> (0 <= j < m)%Z -> me m A' i j = if ((lo <=? j) && (j <? k))%Z then rotrow p q c s (me m A) i j else me m A i j); [lia| | |].
  - split; [reflexivity|]. intros i j Hi Hj. destruct (Z.leb_spec lo j), (Z.ltb_spec j lo); cbn [andb]; try lia; reflexivity.
  - intros k A' Hk (L1 & V). rewrite rotv_ok by (try lia; congruence). apply wp_ok. rewrite !zlen_zupd. split; [exact L1|]. intros i j Hi Hj.
    rewrite me_upd by (rewrite ?zlen_zupd; try lia; congruence). rewrite me_upd by (try lia; congruence). rewrite !V by lia.
    destruct (Z.ltb_spec k k); [lia|]. rewrite andb_false_r. destruct (Z.eqb_spec j k) as [->|Nj].
    + rewrite ?Z.ltb_irrefl, ?andb_false_r. destruct (Z.leb_spec lo k), (Z.ltb_spec k (k + 1)); try lia. cbn [andb]. rewrite !andb_true_r. unfold rotrow. destruct (Z.eqb_spec i q), (Z.eqb_spec i p); try congruence; reflexivity.
    + rewrite !andb_false_r. destruct (Z.ltb_spec j k), (Z.ltb_spec j (k + 1)); try lia; reflexivity.
  - intros A' H. exact H.
Qed.
(** columns p and q, rows lo..hi-1 *)
Lemma cols_ok m c s p q lo hi (A : arr) : p <> q -> (0 <= p < m)%Z -> (0 <= q < m)%Z -> (0 <= lo <= hi)%Z -> (hi <= m)%Z -> zlen A = (m * m)%Z ->
  wp (for_up lo hi (fun j A => rotv (N := N) c s A (j + p * m) (j + q * m)) A) (fun A' => zlen A' = zlen A /\
    forall i j, (0 <= i < m)%Z -> (0 <= j < m)%Z -> me m A' i j = if ((lo <=? i) && (i <? hi))%Z then rotcol p q c s (me m A) i j else me m A i j).
Proof.
  intros D Hp Hq Hl Hh L.
  apply wp_for_up with (I := fun k A' => zlen A' = zlen A /\
    forall i j, (0 <= i < m)%Z -> (0 <= j < m)%Z -> me m A' i j = if ((lo <=? i) && (i <? k))%Z then rotcol p q c s (me m A) i j else me m A i j); [lia| | |].
  - split; [reflexivity|]. intros i j Hi Hj. destruct (Z.leb_spec lo i), (Z.ltb_spec i lo); cbn [andb]; try lia; reflexivity.
  - intros k A' Hk (L1 & V). rewrite rotv_ok by (try lia; congruence). apply wp_ok. rewrite !zlen_zupd. split; [exact L1|]. intros i j Hi Hj.
    rewrite me_upd by (rewrite ?zlen_zupd; try lia; congruence). rewrite me_upd by (try lia; congruence). rewrite !V by lia.
    destruct (Z.ltb_spec k k); [lia|]. rewrite andb_false_r. destruct (Z.eqb_spec i k) as [->|Nj].
    + rewrite ?Z.ltb_irrefl, ?andb_false_r. destruct (Z.leb_spec lo k), (Z.ltb_spec k (k + 1)); try lia. cbn [andb]. unfold rotcol. destruct (Z.eqb_spec j q), (Z.eqb_spec j p); try congruence; reflexivity.
    + cbn [andb]. destruct (Z.ltb_spec i k), (Z.ltb_spec i (k + 1)); try lia; reflexivity.
  - intros A' H. exact H.
Qed.
(** the rotation that annihilates entry (k, l) against (i, j) *)
Lemma givens_ok m (A : arr) i j k l : (0 <= i < m)%Z -> (0 <= j < m)%Z -> (0 <= k < m)%Z -> (0 <= l < m)%Z -> zlen A = (m * m)%Z ->
  exists c s, givens_at (N := N) A (i + j * m) (k + l * m) = Ok (zupd (zupd A (i + j * m) (c * me m A i j + s * me m A k l)) (k + l * m) 0, c, s) /\
    c * c + s * s = 1 /\ - s * me m A i j + c * me m A k l = 0.
Proof.
  intros Hi Hj Hk Hl L. destruct (givens_exact eps zero infty zero_0 (me m A i j) (me m A k l)) as (c & s & E & CS & Z & _). exists c, s. split; [|split; assumption].
  unfold givens_at. rcar. rewrite !rd_me by assumption. cbn [bind]. rewrite E. rewrite wr_me by assumption. cbn [bind]. rewrite wr_me by (rewrite ?zlen_zupd; assumption). reflexivity.
Qed.
(** annihilate (q, i) against (p, i) and rotate the remaining columns up to n *)
Lemma givens_rows m p q i n (A : arr) : p <> q -> (0 <= p < m)%Z -> (0 <= q < m)%Z -> (0 <= i < n)%Z -> (n <= m)%Z -> zlen A = (m * m)%Z ->
  exists c s A1, givens_at (N := N) A (p + i * m) (q + i * m) = Ok (A1, c, s) /\ c * c + s * s = 1 /\
   wp (for_up (i + 1) n (fun j A => rotv (N := N) c s A (p + j * m) (q + j * m)) A1) (fun A' => zlen A' = zlen A /\ me m A' q i = 0 /\
    forall r j, (0 <= r < m)%Z -> (0 <= j < m)%Z -> me m A' r j = if ((i <=? j) && (j <? n))%Z then rotrow p q c s (me m A) r j else me m A r j).
Proof.
  intros D Hp Hq Hi Hn L. destruct (givens_ok m A p i q i) as (c & s & E & CS & Z); try lia. exists c, s. eexists. split; [exact E|]. split; [exact CS|].
  eapply wp_mono; [apply rows_ok; rewrite ?zlen_zupd; try lia; assumption|]. cbv beta. intros A' (L1 & V). rewrite !zlen_zupd in L1.
  assert (W : forall r j, (0 <= r < m)%Z -> (0 <= j < m)%Z -> me m (zupd (zupd A (p + i * m) (c * me m A p i + s * me m A q i)) (q + i * m) 0) r j = if (j =? i)%Z then rotrow p q c s (me m A) r j else me m A r j).
  { intros r j Hr Hj. rewrite me_upd by (rewrite ?zlen_zupd; try lia; assumption). rewrite me_upd by (try lia; assumption). destruct (Z.eqb_spec j i) as [->|]; [|now rewrite !andb_false_r]. rewrite !andb_true_r.
    unfold rotrow. destruct (Z.eqb_spec r q), (Z.eqb_spec r p); try congruence; subst; auto. }
  assert (V' : forall r j, (0 <= r < m)%Z -> (0 <= j < m)%Z -> me m A' r j = if ((i <=? j) && (j <? n))%Z then rotrow p q c s (me m A) r j else me m A r j).
  { intros r j Hr Hj. rewrite V by lia. destruct (Z.leb_spec (i + 1) j), (Z.ltb_spec j n), (Z.leb_spec i j); cbn [andb]; try lia.
    all: try (rewrite W by lia; destruct (Z.eqb_spec j i); [lia|reflexivity]).
    all: try (rewrite W by lia; destruct (Z.eqb_spec j i); [reflexivity|lia]).
    unfold rotrow. rewrite !W by lia. destruct (Z.eqb_spec j i); [lia|reflexivity]. }
  split; [exact L1|]. split; [|exact V']. rewrite V' by lia. destruct (Z.leb_spec i i), (Z.ltb_spec i n); try lia. cbn [andb]. unfold rotrow. destruct (Z.eqb_spec q p); [lia|]. now rewrite Z.eqb_refl.
Qed.
(** annihilate (r, q) against (r, p) where r is the last row, and rotate the rows above *)
Lemma givens_cols m p q n (A : arr) : p <> q -> (0 <= p < m)%Z -> (0 <= q < m)%Z -> (0 <= n < m)%Z -> zlen A = (m * m)%Z ->
  exists c s A1, givens_at (N := N) A (n + p * m) (n + q * m) = Ok (A1, c, s) /\ c * c + s * s = 1 /\
   wp (for_up 0 n (fun j A => rotv (N := N) c s A (j + p * m) (j + q * m)) A1) (fun A' => zlen A' = zlen A /\ me m A' n q = 0 /\
    forall r j, (0 <= r < m)%Z -> (0 <= j < m)%Z -> me m A' r j = if (r <=? n)%Z then rotcol p q c s (me m A) r j else me m A r j).
Proof.
  intros D Hp Hq Hn L. destruct (givens_ok m A n p n q) as (c & s & E & CS & Z); try lia. exists c, s. eexists. split; [exact E|]. split; [exact CS|].
  eapply wp_mono; [apply cols_ok; rewrite ?zlen_zupd; try lia; assumption|]. cbv beta. intros A' (L1 & V). rewrite !zlen_zupd in L1.
  assert (W : forall r j, (0 <= r < m)%Z -> (0 <= j < m)%Z -> me m (zupd (zupd A (n + p * m) (c * me m A n p + s * me m A n q)) (n + q * m) 0) r j = if (r =? n)%Z then rotcol p q c s (me m A) r j else me m A r j).
  { intros r j Hr Hj. rewrite me_upd by (rewrite ?zlen_zupd; try lia; assumption). rewrite me_upd by (try lia; assumption). destruct (Z.eqb_spec r n) as [->|]; [|reflexivity]. cbn [andb].
    unfold rotcol. destruct (Z.eqb_spec j q), (Z.eqb_spec j p); try congruence; subst; auto. }
  assert (V' : forall r j, (0 <= r < m)%Z -> (0 <= j < m)%Z -> me m A' r j = if (r <=? n)%Z then rotcol p q c s (me m A) r j else me m A r j).
  { intros r j Hr Hj. rewrite V by lia. destruct (Z.leb_spec 0 r); [|lia]. destruct (Z.ltb_spec r n), (Z.leb_spec r n); cbn [andb]; try lia.
    - unfold rotcol. rewrite !W by lia. destruct (Z.eqb_spec r n); [lia|reflexivity].
    - rewrite W by lia. destruct (Z.eqb_spec r n); [reflexivity|lia].
    - rewrite W by lia. destruct (Z.eqb_spec r n); [lia|reflexivity]. }
  split; [exact L1|]. split; [|exact V']. rewrite V' by lia. destruct (Z.leb_spec n n); [|lia]. unfold rotcol. destruct (Z.eqb_spec q p); [lia|]. now rewrite Z.eqb_refl.
Qed.

(** *** appending *)
Lemma border_ok m n (S Q R : arr) : (0 < n <= m)%Z -> zlen S = (m * m)%Z -> zlen Q = (m * m)%Z -> zlen R = (m * m)%Z ->
  wp (qr_border (N := N) m n S Q R) (fun st => zlen (fst st) = (m * m)%Z /\ zlen (snd st) = (m * m)%Z /\
    (forall i j, (0 <= i < n - 1)%Z -> (0 <= j < n - 1)%Z -> me m (fst st) i j = me m Q i j) /\
    (forall i, (0 <= i < n - 1)%Z -> me m (fst st) i (n - 1) = 0 /\ me m (fst st) (n - 1) i = 0) /\ me m (fst st) (n - 1) (n - 1) = 1 /\
    (forall i j, (0 <= i < n - 1)%Z -> (0 <= j < n - 1)%Z -> me m (snd st) i j = me m R i j) /\
    (forall j, (0 <= j < n - 1)%Z -> me m (snd st) (n - 1) j = me m S (n - 1) j) /\
    (forall i, (0 <= i <= n - 1)%Z -> me m (snd st) i (n - 1) = rsum 0 n (fun k => me m (fst st) k i * me m S k (n - 1)))).
Proof.
  intros Hn LS LQ LR. unfold qr_border. apply wp_bind.
  apply wp_for_up with (I := fun k Q' => zlen Q' = (m * m)%Z /\ (forall i j, (0 <= i < n - 1)%Z -> (0 <= j < n - 1)%Z -> me m Q' i j = me m Q i j) /\
    (forall i, (0 <= i < k)%Z -> (i < n)%Z -> me m Q' i (n - 1) = 0 /\ me m Q' (n - 1) i = 0)); [lia| | |].
  { split; [assumption|]. split; [reflexivity|]. intros; lia. }
  { intros k Q' Hk (L1 & V1 & V2). rcar. rewrite wr_me by lia. cbn [bind]. rewrite wr_me by (rewrite ?zlen_zupd; lia). apply wp_ok. rewrite !zlen_zupd. split; [exact L1|]. split.
    - intros i j Hi Hj. rewrite me_upd by (rewrite ?zlen_zupd; lia). rewrite me_upd by lia. destruct (Z.eqb_spec i (n - 1)), (Z.eqb_spec j (n - 1)); try lia. rewrite !andb_false_r. cbn [andb]. auto.
    - intros i Hi Hn'. rnum. split; (rewrite me_upd by (rewrite ?zlen_zupd; lia); rewrite me_upd by lia); rewrite Z.eqb_refl; rewrite ?andb_true_r; cbn [andb].
      + destruct (Z.eqb_spec i (n - 1)), (Z.eqb_spec (n - 1) k), (Z.eqb_spec i k); cbn [andb]; try reflexivity; apply V2; lia.
      + destruct (Z.eqb_spec i (n - 1)), (Z.eqb_spec (n - 1) k), (Z.eqb_spec i k); cbn [andb]; try reflexivity; apply V2; lia. }
  intros Q1 (L1 & V1 & V2). rcar. rewrite wr_me by lia. cbn [bind]. rnum. set (Q2 := zupd Q1 (n - 1 + (n - 1) * m) 1).
  assert (L2 : zlen Q2 = (m * m)%Z) by (unfold Q2; now rewrite zlen_zupd).
  assert (U1 : forall i j, (0 <= i < n - 1)%Z -> (0 <= j < n - 1)%Z -> me m Q2 i j = me m Q i j).
  { intros i j Hi Hj. unfold Q2. rewrite me_upd by lia. destruct (Z.eqb_spec i (n - 1)); [lia|]. cbn [andb]. now apply V1. }
  assert (U2 : forall i, (0 <= i < n - 1)%Z -> me m Q2 i (n - 1) = 0 /\ me m Q2 (n - 1) i = 0).
  { intros i Hi. unfold Q2. rewrite !me_upd by lia. destruct (Z.eqb_spec i (n - 1)); [lia|]. rewrite Z.eqb_refl. cbn [andb]. apply V2; lia. }
  assert (U3 : me m Q2 (n - 1) (n - 1) = 1) by (unfold Q2; rewrite me_upd by lia; now rewrite Z.eqb_refl).
  clearbody Q2. clear Q1 L1 V1 V2. apply wp_bind.
  apply wp_for_up with (I := fun k R' => zlen R' = (m * m)%Z /\ (forall i j, (0 <= i < n - 1)%Z -> (0 <= j < n)%Z -> me m R' i j = me m R i j) /\
    (forall j, (0 <= j < k)%Z -> (j < n)%Z -> me m R' (n - 1) j = me m S (n - 1) j)); [lia| | |].
  { split; [assumption|]. split; [reflexivity|]. intros; lia. }
  { intros k R' Hk (L1 & V1 & V2). rewrite rd_me by lia. cbn [bind]. rewrite wr_me by lia. apply wp_ok. rewrite zlen_zupd. split; [exact L1|]. split.
    - intros i j Hi Hj. rewrite me_upd by lia. destruct (Z.eqb_spec i (n - 1)); [lia|]. cbn [andb]. auto.
    - intros j Hj Hn'. rewrite me_upd by lia. rewrite Z.eqb_refl. cbn [andb]. destruct (Z.eqb_spec j k) as [->|]; [reflexivity|]. apply V2; lia. }
  intros R1 (L1 & V1 & V2). apply wp_bind.
  apply wp_for_up with (I := fun k R' => zlen R' = (m * m)%Z /\ (forall i j, (0 <= i < n)%Z -> (0 <= j < n - 1)%Z -> me m R' i j = me m R1 i j) /\
    (forall i, (0 <= i < k)%Z -> (i < n)%Z -> me m R' i (n - 1) = rsum 0 n (fun l => me m Q2 l i * me m S l (n - 1)))); [lia| | |].
  { split; [assumption|]. split; [reflexivity|]. intros; lia. }
  { intros k R' Hk (M1 & W1 & W2). rewrite wr_me by lia. cbn [bind].
    apply wp_for_up with (I := fun l R'' => zlen R'' = (m * m)%Z /\ (forall i j, (0 <= i < n)%Z -> (0 <= j < n)%Z -> me m R'' i j = if ((i =? k) && (j =? n - 1))%Z then rsum 0 l (fun l => me m Q2 l k * me m S l (n - 1)) else me m R' i j)); [lia| | |].
    - rewrite zlen_zupd. split; [exact M1|]. intros i j Hi Hj. rewrite me_upd by lia. rewrite rsum_empty by lia. reflexivity.
    - intros l R'' Hl (M2 & X). rewrite !rd_me by lia. cbn [bind]. rewrite wr_me by lia. apply wp_ok. rewrite zlen_zupd. split; [exact M2|]. intros i j Hi Hj. rewrite me_upd by lia.
      rewrite !X by lia. rewrite !Z.eqb_refl. cbn [andb]. rewrite rsum_last by lia. destruct ((i =? k) && (j =? n - 1))%Z; reflexivity.
    - intros R'' (M2 & X). split; [exact M2|]. split.
      + intros i j Hi Hj. rewrite X by lia. destruct (Z.eqb_spec j (n - 1)); [lia|]. rewrite andb_false_r. apply W1; lia.
      + intros i Hi Hn'. rewrite X by lia. rewrite Z.eqb_refl, andb_true_r. destruct (Z.eqb_spec i k) as [->|]; [reflexivity|]. apply W2; lia. }
  intros R2 (M2 & W1 & W2). apply wp_ok. cbn [fst snd]. repeat (split; [assumption|]). split; [|split].
  - intros i j Hi Hj. rewrite W1 by lia. apply V1; lia.
  - intros j Hj. rewrite W1 by lia. apply V2; lia.
  - intros i Hi. apply W2; lia.
Qed.
Definition upper (n : Z) (f : Z -> Z -> R) : Prop := forall i j, (0 <= j < i)%Z -> (i < n)%Z -> f i j = 0.
Theorem append_ok m n (S Q R : arr) So : (0 < n <= m)%Z -> zlen S = (m * m)%Z -> zlen Q = (m * m)%Z -> zlen R = (m * m)%Z ->
  qrs (n - 1) (n - 1) 1 So (me m Q) (me m R) -> upper (n - 1) (me m R) ->
  (forall i j, (0 <= i < n - 1)%Z -> (0 <= j < n - 1)%Z -> me m S i j = So i j) ->
  wp (qr_append (N := N) m n S Q R) (fun st => zlen (fst st) = (m * m)%Z /\ zlen (snd st) = (m * m)%Z /\
    qrs n n 1 (me m S) (me m (fst st)) (me m (snd st)) /\ upper n (me m (snd st))).
Proof.
  intros Hn LS LQ LR I U ES. unfold qr_append. apply wp_bind. eapply wp_mono; [apply border_ok; assumption|]. cbv beta. intros [Q1 R1] (L1 & L2 & B1 & B2 & B3 & B4 & B5 & B6). cbn [fst snd] in *.
  assert (I1 : qrs n n 1 (me m S) (me m Q1) (me m R1)).
  { pose proof (qrs_border (n - 1) So (me m Q) (me m R) (me m S) (me m Q1) (me m R1)) as K. replace (n - 1 + 1)%Z with n in K by lia. apply K; auto; lia. }
  apply wp_for_up with (I := fun k st => zlen (fst st) = (m * m)%Z /\ zlen (snd st) = (m * m)%Z /\ qrs n n 1 (me m S) (me m (fst st)) (me m (snd st)) /\
    upper (n - 1) (me m (snd st)) /\ (forall j, (0 <= j < k)%Z -> me m (snd st) (n - 1) j = 0)); [lia| | |].
  - cbn [fst snd]. repeat (split; [assumption|]). split; [|intros; lia]. intros i j Hi Hj. rewrite B4 by lia. apply U; lia.
  - intros k [Q2 R2] Hk (M1 & M2 & J & JU & JZ). cbn [fst snd] in *. unfold qr_append_rot.
    destruct (givens_rows m k (n - 1) k n R2) as (c & s & A1 & E & CS & W); try lia. rewrite E. cbn [bind]. apply wp_bind. eapply wp_mono; [exact W|]. cbv beta. intros R3 (M3 & Z3 & V3).
    apply wp_bind. eapply wp_mono; [apply cols_ok; try lia; assumption|]. cbv beta. intros Q3 (M4 & V4). apply wp_ok. cbn [fst snd].
    assert (VR : forall r j, (0 <= r < n)%Z -> (0 <= j < n)%Z -> me m R3 r j = rotrow k (n - 1) c s (me m R2) r j).
    { intros r j Hr Hj. rewrite V3 by lia. destruct (Z.leb_spec k j), (Z.ltb_spec j n); try lia; cbn [andb]; [reflexivity|]. unfold rotrow. rewrite (JU k j), (JZ j) by lia.
      destruct (Z.eqb_spec r k) as [->|]; [rewrite (JU k j) by lia; ring|]. destruct (Z.eqb_spec r (n - 1)) as [->|]; [rewrite (JZ j) by lia; ring|reflexivity]. }
    split; [exact (eq_trans M4 M1)|]. split; [exact (eq_trans M3 M2)|]. split; [|split].
    + apply (qrs_rot n n 1 (me m S) (me m Q2) (me m R2) k (n - 1) c s); try lia; try assumption. intros i j Hi Hj. rewrite V4 by lia. destruct (Z.leb_spec 0 i), (Z.ltb_spec i n); try lia. reflexivity.
    + intros i j Hi Hj. rewrite VR by lia. unfold rotrow. destruct (Z.eqb_spec i k) as [->|]; [rewrite (JU k j), (JZ j) by lia; ring|]. destruct (Z.eqb_spec i (n - 1)); [lia|]. apply JU; lia.
    + intros j Hj. destruct (Z.eq_dec j k) as [->|]; [exact Z3|]. rewrite VR by lia. unfold rotrow. rewrite Z.eqb_refl. destruct (Z.eqb_spec (n - 1) k); [lia|]. rewrite (JU k j), (JZ j) by lia. ring.
  - intros [Q2 R2] (M1 & M2 & J & JU & JZ). cbn [fst snd] in *. repeat (split; [assumption|]). intros i j Hi Hj. destruct (Z.eq_dec i (n - 1)) as [->|]; [apply JZ; lia|apply JU; lia].
Qed.
End A.
