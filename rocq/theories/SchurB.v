(** Deleting a row and a column from the factorised Schur complement. *)
From Verif Require Import Base Types Num RSum LinSpec LinAlg PropLinAlg QPX7 Schur Det SchurF SchurA.
Local Open Scope R_scope.

Section B.
Variables eps zero infty : R.
Notation N := (RNumT eps zero infty).
Notation arr := (list R).
Hypothesis zero_0 : zero = 0.

Lemma dropcol_ok m n idx (R : arr) : (0 <= idx <= n)%Z -> (n < m)%Z -> zlen R = (m * m)%Z ->
  wp (qr_dropcol (N := N) m n idx R) (fun R' => zlen R' = (m * m)%Z /\ forall i j, (0 <= i <= n)%Z -> (0 <= j < n)%Z -> me m R' i j = me m R i (skip idx j)).
Proof.
  intros Hi Hn L. unfold qr_dropcol.
  apply wp_for_up with (I := fun k R' => zlen R' = (m * m)%Z /\ forall i j, (0 <= i <= n)%Z -> (0 <= j <= n)%Z -> me m R' i j = if ((idx <=? j) && (j <? k))%Z then me m R i (j + 1) else me m R i j); [lia| | |].
  - split; [exact L|]. intros i j _ _. destruct (Z.leb_spec idx j), (Z.ltb_spec j idx); try lia; reflexivity.
  - intros k R1 Hk (L1 & V1).
    apply wp_for_up with (I := fun l R' => zlen R' = (m * m)%Z /\ forall i j, (0 <= i <= n)%Z -> (0 <= j <= n)%Z -> me m R' i j = if ((j =? k) && (i <? l))%Z then me m R i (k + 1) else me m R1 i j); [lia| | |].
    + split; [exact L1|]. intros i j Hi' Hj. destruct (Z.ltb_spec i 0); [lia|]. now rewrite andb_false_r.
    + intros l R2 Hl (L2 & V2). rcar. rewrite rd_me by lia. cbn [bind]. rewrite wr_me by lia. apply wp_ok. rewrite zlen_zupd. split; [exact L2|]. intros i j Hi' Hj. rewrite me_upd by lia. rewrite !V2 by lia.
      rewrite (V1 l (k + 1)%Z) by lia. destruct (Z.eqb_spec (k + 1) k); [lia|]. cbn [andb]. destruct (Z.ltb_spec (k + 1) k); [lia|]. rewrite andb_false_r.
      destruct (Z.eqb_spec i l) as [->|]; destruct (Z.eqb_spec j k) as [->|]; cbn [andb]; try reflexivity.
      * destruct (Z.ltb_spec l (l + 1)); [reflexivity|lia].
      * destruct (Z.ltb_spec i l), (Z.ltb_spec i (l + 1)); try lia; reflexivity.
    + intros R2 (L2 & V2). split; [exact L2|]. intros i j Hi' Hj. rewrite V2, V1 by lia. destruct (Z.eqb_spec j k) as [->|]; cbn [andb].
      * destruct (Z.ltb_spec i (n + 1)), (Z.leb_spec idx k), (Z.ltb_spec k (k + 1)); try lia. reflexivity.
      * destruct (Z.ltb_spec j k), (Z.ltb_spec j (k + 1)); try lia; reflexivity.
  - intros R1 (L1 & V1). split; [exact L1|]. intros i j Hi' Hj. rewrite V1 by lia. unfold skip. destruct (Z.leb_spec idx j), (Z.ltb_spec j n), (Z.ltb_spec j idx); try lia; reflexivity.
Qed.
Lemma permute_ok m n idx (Q : arr) : (0 <= idx <= n)%Z -> (n < m)%Z -> zlen Q = (m * m)%Z ->
  wp (qr_permute (N := N) m n idx Q) (fun Q' => zlen Q' = (m * m)%Z /\ forall i j, (0 <= i <= n)%Z -> (0 <= j <= n)%Z -> me m Q' i j = me m Q (mvl idx n i) j).
Proof.
  intros Hi Hn L. unfold qr_permute.
  apply wp_for_up with (I := fun k Q' => zlen Q' = (m * m)%Z /\ forall i j, (0 <= i <= n)%Z -> (0 <= j <= n)%Z -> me m Q' i j = if (j <? k)%Z then me m Q (mvl idx n i) j else me m Q i j); [lia| | |].
  - split; [exact L|]. intros i j _ Hj. destruct (Z.ltb_spec j 0); [lia|reflexivity].
  - intros k Q1 Hk (L1 & V1). rcar. rewrite rd_me by lia. cbn [bind]. apply wp_bind.
    apply wp_for_up with (I := fun l Q' => zlen Q' = (m * m)%Z /\ forall i j, (0 <= i <= n)%Z -> (0 <= j <= n)%Z -> me m Q' i j = if ((j =? k) && ((idx <=? i) && (i <? l)))%Z then me m Q (i + 1) k else me m Q1 i j); [lia| | |].
    + split; [exact L1|]. intros i j Hi' Hj. destruct (Z.leb_spec idx i), (Z.ltb_spec i idx); try lia; cbn [andb]; now rewrite andb_false_r.
    + intros l Q2 Hl (L2 & V2). rewrite rd_me by lia. cbn [bind]. rewrite wr_me by lia. apply wp_ok. rewrite zlen_zupd. split; [exact L2|]. intros i j Hi' Hj. rewrite me_upd by lia. rewrite !V2 by lia.
      rewrite Z.eqb_refl. destruct (Z.ltb_spec (l + 1) l); [lia|]. rewrite andb_false_r. cbn [andb]. rewrite (V1 (l + 1)%Z k) by lia. rewrite Z.ltb_irrefl.
      destruct (Z.eqb_spec i l) as [->|]; destruct (Z.eqb_spec j k) as [->|]; cbn [andb]; try reflexivity.
      * destruct (Z.leb_spec idx l), (Z.ltb_spec l (l + 1)); try lia. reflexivity.
      * destruct (Z.leb_spec idx i), (Z.ltb_spec i l), (Z.ltb_spec i (l + 1)); try lia; reflexivity.
    + intros Q2 (L2 & V2). rewrite wr_me by lia. apply wp_ok. rewrite zlen_zupd. split; [exact L2|]. intros i j Hi' Hj. rewrite me_upd by lia. rewrite V2 by lia. rewrite (V1 idx k) by lia. rewrite Z.ltb_irrefl.
      destruct (Z.eqb_spec j k) as [->|]; cbn [andb].
      * destruct (Z.ltb_spec k (k + 1)); [|lia]. rewrite andb_true_r. unfold mvl. rewrite V1 by lia. rewrite Z.ltb_irrefl.
        destruct (Z.eqb_spec i n), (Z.leb_spec idx i), (Z.ltb_spec i n), (Z.ltb_spec i idx); try lia; reflexivity.
      * rewrite andb_false_r. rewrite V1 by lia. destruct (Z.ltb_spec j k), (Z.ltb_spec j (k + 1)); try lia; reflexivity.
  - intros Q1 (L1 & V1). split; [exact L1|]. intros i j Hi' Hj. rewrite V1 by lia. destruct (Z.ltb_spec j (n + 1)); [reflexivity|lia].
Qed.

(** the first sweep removes the subdiagonal left by the missing column *)
Definition hess (n k : Z) (f : Z -> Z -> R) : Prop := forall i j, (0 <= j < n)%Z -> (i <= n)%Z -> ((if j <? k then j else j + 1) < i)%Z -> f i j = 0.
Lemma hess_rot n k c s R R' : (0 <= k < n)%Z -> hess n k R -> c * c + s * s = 1 -> R' (k + 1)%Z k = 0 ->
  (forall i j, (0 <= i <= n)%Z -> (0 <= j < n)%Z -> R' i j = rotrow k (k + 1) c s R i j) -> hess n (k + 1) R'.
Proof.
  intros Hk H CS Z E i j Hj Hi Hl. destruct (Z.eq_dec j k) as [->|Nk].
  - destruct (Z.ltb_spec k (k + 1)); [|lia]. destruct (Z.eq_dec i (k + 1)) as [->|]; [exact Z|]. rewrite E by lia. unfold rotrow. destruct (Z.eqb_spec i k), (Z.eqb_spec i (k + 1)); try lia. apply H; try lia. rewrite Z.ltb_irrefl. lia.
  - assert (Hl' : ((if j <? k then j else j + 1) < i)%Z) by (destruct (Z.ltb_spec j k), (Z.ltb_spec j (k + 1)); lia).
    rewrite E by (destruct (Z.ltb_spec j k); lia). unfold rotrow. destruct (Z.eqb_spec i k) as [->|]; [|destruct (Z.eqb_spec i (k + 1)) as [->|]].
    + rewrite (H k j), (H (k + 1)%Z j) by (try lia; destruct (Z.ltb_spec j k); lia). ring.
    + destruct (Z.ltb_spec j k); [|lia]. rewrite (H k j), (H (k + 1)%Z j) by (try lia; destruct (Z.ltb_spec j k); lia). ring.
    + apply H; try lia.
Qed.
Lemma sweep1_ok m n idx S (Q R : arr) : (0 <= idx <= n)%Z -> (n < m)%Z -> zlen Q = (m * m)%Z -> zlen R = (m * m)%Z ->
  qrs (n + 1) n 1 S (me m Q) (me m R) -> hess n idx (me m R) ->
  wp (for_up idx n (fun i st => qr_delete_rot1 (N := N) m n i st) (Q, R)) (fun st => zlen (fst st) = (m * m)%Z /\ zlen (snd st) = (m * m)%Z /\
    qrs (n + 1) n 1 S (me m (fst st)) (me m (snd st)) /\ hess n n (me m (snd st))).
Proof.
  intros Hi Hn LQ LR I H.
  apply wp_for_up with (I := fun k st => zlen (fst st) = (m * m)%Z /\ zlen (snd st) = (m * m)%Z /\ qrs (n + 1) n 1 S (me m (fst st)) (me m (snd st)) /\ hess n k (me m (snd st))); [lia| | |].
  - cbn [fst snd]. auto.
  - intros k [Q1 R1] Hk (L1 & L2 & J & JH). cbn [fst snd] in *. unfold qr_delete_rot1.
    destruct (givens_rows eps zero infty zero_0 m k (k + 1) k n R1) as (c & s & A1 & E & CS & W); try lia. rewrite E. cbn [bind]. apply wp_bind. eapply wp_mono; [exact W|]. cbv beta. intros R3 (M3 & Z3 & V3).
    apply wp_bind. eapply wp_mono; [apply cols_ok; try lia; assumption|]. cbv beta. intros Q3 (M4 & V4). apply wp_ok. cbn [fst snd].
    assert (VR : forall r j, (0 <= r <= n)%Z -> (0 <= j < n)%Z -> me m R3 r j = rotrow k (k + 1) c s (me m R1) r j).
    { intros r j Hr Hj. rewrite V3 by lia. destruct (Z.leb_spec k j), (Z.ltb_spec j n); try lia; cbn [andb]; [reflexivity|]. unfold rotrow.
      assert (Z1 : me m R1 k j = 0) by (apply JH; try lia; destruct (Z.ltb_spec j k); lia). assert (Z2 : me m R1 (k + 1) j = 0) by (apply JH; try lia; destruct (Z.ltb_spec j k); lia). rewrite Z1, Z2.
      destruct (Z.eqb_spec r k) as [->|]; [rewrite Z1; ring|]. destruct (Z.eqb_spec r (k + 1)) as [->|]; [rewrite Z2; ring|reflexivity]. }
    split; [exact (eq_trans M4 L1)|]. split; [exact (eq_trans M3 L2)|]. split.
    + apply (qrs_rot (n + 1) n 1 S (me m Q1) (me m R1) k (k + 1) c s); try lia; try assumption.
      * intros i j Hi' Hj. rewrite V4 by lia. destruct (Z.leb_spec 0 i), (Z.ltb_spec i (n + 1)); try lia. reflexivity.
      * intros i j Hi' Hj. apply VR; lia.
    + apply (hess_rot n k c s (me m R1)); auto; lia.
  - intros st K. exact K.
Qed.
(** the second sweep reduces the last row of Q *)
Definition s2inv (n k : Z) (Q R : Z -> Z -> R) : Prop :=
  (forall j, (k <= j < n)%Z -> Q n j = 0) /\ (forall j, (0 <= j < k)%Z -> R n j = 0) /\ upper n R.
Lemma s2_rot n k c s Q R Q' R' : (0 < k <= n)%Z -> s2inv n k Q R -> Q' n (k - 1)%Z = 0 ->
  (forall i j, (0 <= i <= n)%Z -> (0 <= j <= n)%Z -> Q' i j = rotcol n (k - 1) c s Q i j) ->
  (forall i j, (0 <= i <= n)%Z -> (0 <= j < n)%Z -> R' i j = if (k - 1 <=? j)%Z then rotrow n (k - 1) c s R i j else R i j) ->
  s2inv n (k - 1) Q' R' /\ (forall i j, (0 <= i <= n)%Z -> (0 <= j < n)%Z -> R' i j = rotrow n (k - 1) c s R i j).
Proof.
  intros Hk (A & B & U) Z EQ ER.
  assert (ER' : forall i j, (0 <= i <= n)%Z -> (0 <= j < n)%Z -> R' i j = rotrow n (k - 1) c s R i j).
  { intros i j Hi Hj. rewrite ER by lia. destruct (Z.leb_spec (k - 1) j); [reflexivity|]. unfold rotrow. rewrite (B j), (U (k - 1)%Z j) by lia.
    destruct (Z.eqb_spec i n) as [->|]; [rewrite (B j) by lia; ring|]. destruct (Z.eqb_spec i (k - 1)) as [->|]; [rewrite (U (k - 1)%Z j) by lia; ring|reflexivity]. }
  split; [|exact ER']. split; [|split].
  - intros j Hj. destruct (Z.eq_dec j (k - 1)) as [->|]; [exact Z|]. rewrite EQ by lia. unfold rotcol. destruct (Z.eqb_spec j n), (Z.eqb_spec j (k - 1)); try lia. apply A; lia.
  - intros j Hj. rewrite ER by lia. destruct (Z.leb_spec (k - 1) j); [lia|]. apply B; lia.
  - intros i j Hi Hj. rewrite ER' by lia. unfold rotrow. destruct (Z.eqb_spec i n); [lia|]. destruct (Z.eqb_spec i (k - 1)) as [->|]; [|now apply U]. rewrite (B j), (U (k - 1)%Z j) by lia. ring.
Qed.
Lemma sweep2_ok m n sig S (Q R : arr) : (0 <= n < m)%Z -> zlen Q = (m * m)%Z -> zlen R = (m * m)%Z ->
  qrs (n + 1) n sig S (me m Q) (me m R) -> s2inv n n (me m Q) (me m R) ->
  wp (for_dn n 0 (fun i st => qr_delete_rot2 (N := N) m n i st) (Q, R)) (fun st => zlen (fst st) = (m * m)%Z /\ zlen (snd st) = (m * m)%Z /\
    qrs (n + 1) n sig S (me m (fst st)) (me m (snd st)) /\ s2inv n 0 (me m (fst st)) (me m (snd st))).
Proof.
  intros Hn LQ LR I H.
  apply wp_for_dn with (I := fun k st => zlen (fst st) = (m * m)%Z /\ zlen (snd st) = (m * m)%Z /\ qrs (n + 1) n sig S (me m (fst st)) (me m (snd st)) /\ s2inv n k (me m (fst st)) (me m (snd st))); [lia| | |].
  - cbn [fst snd]. auto.
  - intros k [Q1 R1] Hk (L1 & L2 & J & JH). cbn [fst snd] in *. unfold qr_delete_rot2.
    destruct (givens_cols eps zero infty zero_0 m n (k - 1) n Q1) as (c & s & A1 & E & CS & W); try lia. rewrite E. cbn [bind]. apply wp_bind. eapply wp_mono; [exact W|]. cbv beta. intros Q3 (M3 & Z3 & V3).
    apply wp_bind. eapply wp_mono; [apply rows_ok; try lia; assumption|]. cbv beta. intros R3 (M4 & V4). apply wp_ok. cbn [fst snd].
    assert (VQ : forall i j, (0 <= i <= n)%Z -> (0 <= j <= n)%Z -> me m Q3 i j = rotcol n (k - 1) c s (me m Q1) i j) by (intros i j Hi Hj; rewrite V3 by lia; destruct (Z.leb_spec i n); [reflexivity|lia]).
    destruct (s2_rot n k c s (me m Q1) (me m R1) (me m Q3) (me m R3)) as [K VR]; auto; try lia.
    { intros i j Hi Hj. rewrite V4 by lia. destruct (Z.ltb_spec j n); [|lia]. now rewrite andb_true_r. }
    split; [exact (eq_trans M3 L1)|]. split; [exact (eq_trans M4 L2)|]. split; [|exact K].
    apply (qrs_rot (n + 1) n sig S (me m Q1) (me m R1) n (k - 1) c s); try lia; try assumption.
    + intros i j Hi' Hj. apply VQ; lia.
    + intros i j Hi' Hj. apply VR; lia.
  - intros st K. exact K.
Qed.
Lemma negcol_ok m n (Q : arr) : (0 <= n < m)%Z -> zlen Q = (m * m)%Z ->
  wp (for_up 0 (n + 1) (fun i Q => v <- rd Q i ;; wr Q i (-' v : N)) Q) (fun Q' => zlen Q' = (m * m)%Z /\ forall i j, (0 <= i <= n)%Z -> (0 <= j <= n)%Z -> me m Q' i j = if (j =? 0)%Z then - me m Q i j else me m Q i j).
Proof.
  intros Hn L. apply wp_for_up with (I := fun k Q' => zlen Q' = (m * m)%Z /\ forall i j, (0 <= i <= n)%Z -> (0 <= j <= n)%Z -> me m Q' i j = if ((j =? 0) && (i <? k))%Z then - me m Q i j else me m Q i j); [lia| | |].
  - split; [exact L|]. intros i j Hi Hj. destruct (Z.ltb_spec i 0); [lia|]. now rewrite andb_false_r.
  - intros k Q1 Hk (L1 & V). assert (E : rd Q1 k = Ok (me m Q1 k 0)) by (rewrite <- (rd_me m) by lia; f_equal; lia). assert (E' : forall v, wr Q1 k v = Ok (zupd Q1 (k + 0 * m) v)) by (intros v; rewrite <- (wr_me m) by lia; f_equal; lia).
    rcar. rewrite E. cbn [bind]. rewrite E'. apply wp_ok. rnum. rewrite zlen_zupd. split; [exact L1|]. intros i j Hi Hj. rewrite me_upd by lia. rewrite !V by lia. rewrite Z.ltb_irrefl, andb_false_r.
    destruct (Z.eqb_spec i k) as [->|]; destruct (Z.eqb_spec j 0) as [->|]; cbn [andb]; try reflexivity.
    + destruct (Z.ltb_spec k (k + 1)); [reflexivity|lia].
    + destruct (Z.ltb_spec i k), (Z.ltb_spec i (k + 1)); try lia; reflexivity.
  - intros Q1 (L1 & V). split; [exact L1|]. intros i j Hi Hj. rewrite V by lia. destruct (Z.ltb_spec i (n + 1)); [|lia]. now rewrite andb_true_r.
Qed.
Lemma negrow_ok m n (R : arr) : (0 <= n < m)%Z -> zlen R = (m * m)%Z ->
  wp (for_up 0 n (fun i R => v <- rd R (i * m) ;; wr R (i * m) (-' v : N)) R) (fun R' => zlen R' = (m * m)%Z /\ forall i j, (0 <= i < n)%Z -> (0 <= j < n)%Z -> me m R' i j = if (i =? 0)%Z then - me m R i j else me m R i j).
Proof.
  intros Hn L. apply wp_for_up with (I := fun k R' => zlen R' = (m * m)%Z /\ forall i j, (0 <= i < n)%Z -> (0 <= j < n)%Z -> me m R' i j = if ((i =? 0) && (j <? k))%Z then - me m R i j else me m R i j); [lia| | |].
  - split; [exact L|]. intros i j Hi Hj. destruct (Z.ltb_spec j 0); [lia|]. now rewrite andb_false_r.
  - intros k R1 Hk (L1 & V). assert (E : rd R1 (k * m) = Ok (me m R1 0 k)) by (rewrite <- (rd_me m) by lia; f_equal; lia). assert (E' : forall v, wr R1 (k * m) v = Ok (zupd R1 (0 + k * m) v)) by (intros v; rewrite <- (wr_me m) by lia; f_equal; lia).
    rcar. rewrite E. cbn [bind]. rewrite E'. apply wp_ok. rnum. rewrite zlen_zupd. split; [exact L1|]. intros i j Hi Hj. rewrite me_upd by lia. rewrite !V by lia. rewrite Z.ltb_irrefl, andb_false_r.
    destruct (Z.eqb_spec j k) as [->|]; destruct (Z.eqb_spec i 0) as [->|]; cbn [andb]; try reflexivity.
    + destruct (Z.ltb_spec k (k + 1)); [reflexivity|lia].
    + destruct (Z.ltb_spec j k), (Z.ltb_spec j (k + 1)); try lia; reflexivity.
  - intros R1 (L1 & V). split; [exact L1|]. intros i j Hi Hj. rewrite V by lia. destruct (Z.ltb_spec j n); [|lia]. now rewrite andb_true_r.
Qed.
Lemma flip_sign_spec n idx q : (0 <= idx <= n)%Z -> q * q = 1 -> flip_sign (N := N) n idx q = true /\ q * sg (n - idx) = -1 \/ flip_sign (N := N) n idx q = false /\ q * sg (n - idx) = 1.
Proof.
  intros Hi Hq. assert (D : q = 1 \/ q = -1). { assert (E : (q - 1) * (q + 1) = 0) by (ring_simplify; lra). apply Rmult_integral in E as [E|E]; [left|right]; lra. }
  unfold flip_sign, sg. rnum. rewrite Z.rem_mod_nonneg by lia. rewrite Zmod_even. unfold Rltb. destruct (Z.even (n - idx)); cbn [Z.eqb andb orb]; destruct D as [->| ->].
  all: repeat match goal with |- context [Rlt_dec ?a ?b] => destruct (Rlt_dec a b) end; cbn [andb orb]; try lra; auto.
  all: first [left; split; [reflexivity|lra] | right; split; [reflexivity|lra]].
Qed.
Theorem delete_ok m n idx S (Q R : arr) : (0 < n < m)%Z -> (0 <= idx <= n)%Z -> zlen Q = (m * m)%Z -> zlen R = (m * m)%Z ->
  qrs (n + 1) (n + 1) 1 S (me m Q) (me m R) -> upper (n + 1) (me m R) ->
  wp (qr_delete (N := N) m n idx Q R) (fun st => zlen (fst st) = (m * m)%Z /\ zlen (snd st) = (m * m)%Z /\
    qrs n n 1 (fun i j => S (skip idx i) (skip idx j)) (me m (fst st)) (me m (snd st)) /\ upper n (me m (snd st))).
Proof.
  intros Hn Hi LQ LR I U. unfold qr_delete. apply wp_bind. eapply wp_mono; [apply dropcol_ok; try lia; assumption|]. cbv beta. intros R1 (L1 & V1).
  assert (I1 : qrs (n + 1) n 1 (fun i j => S i (skip idx j)) (me m Q) (me m R1)) by (apply (qrs_dropcol n idx 1 S (me m Q) (me m R)); auto; lia).
  assert (H1 : hess n idx (me m R1)).
  { intros i j Hj Hi' Hl. rewrite V1 by (destruct (Z.ltb_spec j idx); lia). apply U; unfold skip; destruct (Z.ltb_spec j idx); lia. }
  apply wp_bind. eapply wp_mono; [apply (sweep1_ok m n idx (fun i j => S i (skip idx j)) Q R1); try lia; assumption|]. cbv beta. intros [Q2 R2] (L2 & L3 & I2 & H2). cbn [fst snd] in *.
  apply wp_bind. eapply wp_mono; [apply permute_ok; try lia; assumption|]. cbv beta. intros Q3 (L4 & V4).
  set (S1 := fun i j => S (mvl idx n i) (skip idx j)).
  assert (I3 : qrs (n + 1) n (sg (n - idx)) S1 (me m Q3) (me m R2)) by (apply (qrs_move n n idx _ (me m Q2) (me m R2) S1 (me m Q3) Hi I2); auto).
  assert (H3 : s2inv n n (me m Q3) (me m R2)).
  { split; [intros; lia|]. split; [intros j Hj; apply H2; try lia; destruct (Z.ltb_spec j n); lia|]. intros i j Hj Hi'. apply H2; try lia. destruct (Z.ltb_spec j n); lia. }
  apply wp_bind. eapply wp_mono; [apply (sweep2_ok m n (sg (n - idx)) S1 Q3 R2); try lia; eassumption|]. cbv beta. intros [Q4 R4] (L5 & L6 & I4 & A4 & _ & U4). cbn [fst snd] in *.
  rcar. rewrite rd_me by lia. cbn [bind].
  destruct (qrs_reduce n (sg (n - idx)) S1 (me m Q4) (me m R4)) as [E1 I5]; auto; try lia.
  assert (ES : forall i j, (0 <= i < n)%Z -> (0 <= j < n)%Z -> S (skip idx i) (skip idx j) = S1 i j).
  { intros i j Hi' Hj. unfold S1. f_equal. unfold skip, mvl. destruct (Z.ltb_spec i idx); [reflexivity|]. destruct (Z.ltb_spec i n); [reflexivity|lia]. }
  destruct (flip_sign_spec n idx (me m Q4 n n) Hi E1) as [[F P]|[F P]]; rcar; rewrite F.
  - apply wp_bind. eapply wp_mono; [apply (negcol_ok m n); try lia; assumption|]. cbv beta. intros Q5 (L7 & V7). apply wp_bind. eapply wp_mono; [apply (negrow_ok m n); try lia; assumption|]. cbv beta. intros R5 (L8 & V8).
    apply wp_ok. cbn [fst snd]. do 2 (split; [assumption|]). split.
    + apply (qrs_ext n n 1 S1 (me m Q5) (me m R5)); auto. replace 1 with (- (me m Q4 n n * sg (n - idx))) by lra. apply (qrs_neg n _ S1 (me m Q4) (me m R4)); auto; try lia. intros i j Hi' Hj. apply V7; lia.
    + intros i j Hj Hi'. rewrite V8 by lia. pose proof (U4 i j Hj Hi') as Z0. destruct (i =? 0)%Z; [rewrite Z0; apply Ropp_0|exact Z0].
  - apply wp_ok. cbn [fst snd]. do 2 (split; [assumption|]). split; [|exact U4]. apply (qrs_ext n n 1 S1 (me m Q4) (me m R4)); auto. rewrite <- P. exact I5.
Qed.
End B.
