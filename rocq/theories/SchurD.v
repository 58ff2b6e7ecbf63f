(** The update of the factorisation and the determinant predicted before it. *)
From Verif Require Import Base Types Num RSum LinSpec LinAlg PropLinAlg QPX7 Schur Det SchurF SchurA SchurB SchurS SchurU SchurC.
Local Open Scope R_scope.

Section D.
Variables eps zero infty : R.
Notation N := (RNumT eps zero infty).
Notation arr := (list R).
Notation schur := (Schur.schur N).
Hypothesis zero_0 : zero = 0.

(** S, Q and R of the object as functions *)
Definition Sf (w : schur) : Z -> Z -> R := me (sc_max w) (sc_S w).
Definition Qf (w : schur) : Z -> Z -> R := me (sc_max w) (sc_Q w).
Definition Rf (w : schur) : Z -> Z -> R := me (sc_max w) (sc_R w).

Lemma me_eq0 m (a : arr) i j : me m a i j = mg (n0 : N) m a i j.
Proof. reflexivity. Qed.

(** after the bordering of S *)
Theorem update_append_ok w : sizes w -> (0 < sc_n w)%Z -> qrs (sc_n w - 1) (sc_n w - 1) 1 (Sf w) (Qf w) (Rf w) -> upper (sc_n w - 1) (Rf w) ->
  wp (updateSchurQR (N := N) (-1) w) (fun w' => exists Q R d, w' = mkSchur (sc_max w) (sc_n w) (sc_S w) Q R d (sc_jc w) (sc_ir w) (sc_mv w) (sc_idx w) (sc_typ w) /\
    sizes w' /\ qrs (sc_n w) (sc_n w) 1 (Sf w) (Qf w') (Rf w') /\ upper (sc_n w) (Rf w') /\ sign_of d (det (nat_n (sc_n w)) (Sf w))).
Proof.
  intros Z Hn I U. pose proof Z as Z'. destruct Z' as [Zn ZS ZQ ZR Zjc Zidx Ztyp]. unfold updateSchurQR. destruct (Z.leb_spec (sc_n w) 0); [lia|]. change (-1 <? 0)%Z with true. cbv iota.
  apply wp_bind. eapply wp_mono; [apply (append_ok eps zero infty zero_0 (sc_max w) (sc_n w) (sc_S w) (sc_Q w) (sc_R w) (Sf w)); try assumption; try lia; reflexivity|].
  cbv beta. intros [Q R] (LQ & LR & J & V). cbn [fst snd] in *. apply wp_bind. eapply wp_mono; [apply (det_sign_ok eps zero infty (sc_max w) (sc_n w) R (me (sc_max w) R)); [lia|]|].
  { intros i Hi. apply rd_me; [lia|lia|assumption]. }
  cbv beta. intros d D. apply wp_ok. exists Q, R, d. split; [reflexivity|]. split; [constructor; cbn; assumption|]. split; [exact J|]. split; [exact V|].
  rewrite (qrs_detS (sc_n w) (Sf w) (me (sc_max w) Q) (me (sc_max w) R)); auto; lia.
Qed.
(** after the deletion of a row and a column of S *)
Theorem update_delete_ok w idx So : sizes w -> (0 <= sc_n w < sc_max w)%Z -> (0 <= idx <= sc_n w)%Z -> qrs (sc_n w + 1) (sc_n w + 1) 1 So (Qf w) (Rf w) -> upper (sc_n w + 1) (Rf w) ->
  (forall i j, (0 <= i < sc_n w)%Z -> (0 <= j < sc_n w)%Z -> Sf w i j = So (skip idx i) (skip idx j)) ->
  wp (updateSchurQR (N := N) idx w) (fun w' => exists Q R d, w' = mkSchur (sc_max w) (sc_n w) (sc_S w) Q R d (sc_jc w) (sc_ir w) (sc_mv w) (sc_idx w) (sc_typ w) /\
    sizes w' /\ qrs (sc_n w) (sc_n w) 1 (Sf w) (Qf w') (Rf w') /\ upper (sc_n w) (Rf w') /\ sign_of d (det (nat_n (sc_n w)) (Sf w))).
Proof.
  intros Z Hn Hi I U ES. pose proof Z as Z'. destruct Z' as [Zn ZS ZQ ZR Zjc Zidx Ztyp]. unfold updateSchurQR. destruct (Z.leb_spec (sc_n w) 0).
  { apply wp_ok. assert (E : sc_n w = 0%Z) by lia. exists (sc_Q w), (sc_R w), n1. split; [reflexivity|]. split; [constructor; cbn; assumption|]. rewrite E. split; [|split].
    - constructor; try (intros; lia). intros M. change (1 = 1 * 1). ring.
    - intros i j; intros; lia.
    - change (sign_of 1 1). split; [now left|]. rewrite Rabs_R1. ring. }
  destruct (Z.ltb_spec idx 0); [lia|].
  apply wp_bind. eapply wp_mono; [apply (delete_ok eps zero infty zero_0 (sc_max w) (sc_n w) idx So (sc_Q w) (sc_R w)); try assumption; lia|].
  cbv beta. intros [Q R] (LQ & LR & J & V). cbn [fst snd] in *. apply wp_bind. eapply wp_mono; [apply (det_sign_ok eps zero infty (sc_max w) (sc_n w) R (me (sc_max w) R)); [lia|]|].
  { intros i Hi'. apply rd_me; [lia|lia|assumption]. }
  assert (J' : qrs (sc_n w) (sc_n w) 1 (Sf w) (me (sc_max w) Q) (me (sc_max w) R)) by (eapply qrs_ext; [exact J|exact ES|reflexivity|reflexivity]).
  cbv beta. intros d D. apply wp_ok. exists Q, R, d. split; [reflexivity|]. split; [constructor; cbn; assumption|]. split; [exact J'|]. split; [exact V|].
  rewrite (qrs_detS (sc_n w) (Sf w) (me (sc_max w) Q) (me (sc_max w) R)); auto; lia.
Qed.

(** *** the prediction for an added row and column *)
Theorem calcdet_append_ok w : sizes w -> (0 < sc_n w)%Z -> qrs (sc_n w - 1) (sc_n w - 1) 1 (Sf w) (Qf w) (Rf w) -> upper (sc_n w - 1) (Rf w) ->
  sign_of (sc_det w) (det (nat_n (sc_n w - 1)) (Sf w)) ->
  (forall i j, (0 <= i < sc_n w)%Z -> (0 <= j < sc_n w)%Z -> Sf w i j = Sf w j i) ->
  wp (calcDetSchur (N := N) (-1) w) (fun x => det (nat_n (sc_n w - 1)) (Sf w) <> 0 -> x * Rabs (det (nat_n (sc_n w - 1)) (Sf w)) = det (nat_n (sc_n w)) (Sf w)).
Proof.
  intros Z Hn I U D SY. destruct Z as [Zn ZS ZQ ZR Zjc Zidx Ztyp]. unfold calcDetSchur. destruct (Z.leb_spec (sc_n w) 0); [lia|]. change (-1 <? 0)%Z with true. cbv iota.
  apply wp_bind. eapply wp_mono; [apply (column_ok 0 (sc_max w) (sc_n w - 1) (sc_n w - 1)); rewrite ?zlen_rep; try assumption; lia|]. cbv beta. intros t1 (L1 & V1).
  apply wp_bind. eapply wp_mono; [apply (backsolve_ok eps zero infty w (sc_n w - 1) (Sf w) t1); rewrite ?zlen_rep; try assumption; try lia|]. cbv beta. intros [r x] (Lx & B & _). cbn [fst snd] in *.
  rcar. rewrite rd_me by (try assumption; lia). cbn [bind].
  apply wp_bind. apply wp_for_up with (I := fun k (d : R) => d = Sf w (sc_n w - 1) (sc_n w - 1) - rsum 0 k (fun i => zn 0 t1 i * zn 0 x i)); [lia| | |].
  - rewrite rsum_empty by lia. unfold Sf. ring.
  - intros k d Hk ->. rewrite (rd_ok 0) by lia. cbn [bind]. rewrite (rd_ok 0) by lia. cbn [bind]. apply wp_ok. rnum. rewrite rsum_last by lia. ring.
  - intros d ->. apply wp_ok. intros NZ. destruct (B NZ) as [_ SX]. rnum. destruct D as [D1 D2].
    pose proof (det_bordered (sc_n w - 1) (Sf w) (zn 0 x) ltac:(lia)) as DB. replace (sc_n w - 1 + 1)%Z with (sc_n w) in DB by lia. rewrite DB.
    + rewrite <- D2. rewrite (rsum_ext 0 (sc_n w - 1) (fun k => zn 0 x k * Sf w k (sc_n w - 1)) (fun i => zn 0 t1 i * zn 0 x i)).
      * replace (sc_det w * det (nat_n (sc_n w - 1)) (Sf w)) with (sc_det w * det (nat_n (sc_n w - 1)) (Sf w)) by reflexivity. assert (sc_det w * sc_det w = 1) as DD by (destruct D1 as [-> | ->]; ring).
        transitivity ((Sf w (sc_n w - 1) (sc_n w - 1) - rsum 0 (sc_n w - 1) (fun i : Z => zn 0 t1 i * zn 0 x i)) * det (nat_n (sc_n w - 1)) (Sf w) * (sc_det w * sc_det w)); [ring|]. rewrite DD. ring.
      * intros k Hk. rewrite V1 by lia. unfold Sf, me, mg. ring.
    + intros j Hj. rewrite (SY (sc_n w - 1)%Z j) by lia. transitivity (zn 0 t1 j); [|rewrite V1 by lia; reflexivity]. rewrite <- SX by lia. apply rsum_ext. intros k Hk. rewrite (SY k j) by lia. ring.
Qed.

(** *** the prediction for a deleted row and column *)
(** arrays with d rows and nc columns *)
Lemma mr_upd d nc (A : arr) a b v i j : (0 <= a < d)%Z -> (0 <= b < nc)%Z -> (0 <= i < d)%Z -> (0 <= j < nc)%Z -> zlen A = (d * nc)%Z ->
  me d (zupd A (a + b * d) v) i j = if ((i =? a) && (j =? b))%Z then v else me d A i j.
Proof.
  intros Ha Hb Hi Hj L. unfold me. rewrite zn_zupd by nia. destruct (Z.eqb_spec (i + j * d) (a + b * d)) as [E|E].
  - apply me_eq in E as [-> ->]; try lia. now rewrite !Z.eqb_refl.
  - destruct (Z.eqb_spec i a), (Z.eqb_spec j b); subst; cbn [andb]; congruence.
Qed.
Lemma rd_mr d nc (A : arr) i j : (0 <= i < d)%Z -> (0 <= j < nc)%Z -> zlen A = (d * nc)%Z -> rd A (i + j * d) = Ok (me d A i j).
Proof. intros Hi Hj L. apply rd_ok. nia. Qed.
Lemma wr_mr d nc (A : arr) i j v : (0 <= i < d)%Z -> (0 <= j < nc)%Z -> zlen A = (d * nc)%Z -> wr A (i + j * d) v = Ok (zupd A (i + j * d) v).
Proof. intros Hi Hj L. apply wr_ok. nia. Qed.
Lemma rotv_mr d nc c s (A : arr) i j k l : (0 <= i < d)%Z -> (0 <= j < nc)%Z -> (0 <= k < d)%Z -> (0 <= l < nc)%Z -> zlen A = (d * nc)%Z ->
  rotv (N := N) c s A (i + j * d) (k + l * d) = Ok (zupd (zupd A (i + j * d) (c * me d A i j + s * me d A k l)) (k + l * d) (- s * me d A i j + c * me d A k l)).
Proof.
  intros. unfold rotv. rcar. rewrite !(rd_mr d nc) by assumption. cbn [bind]. unfold applyGivens. rnum. rewrite (wr_mr d nc) by assumption. cbn [bind]. apply (wr_mr d nc); try assumption. now rewrite zlen_zupd.
Qed.
Lemma givens_rows_mr d nc p q i (A : arr) : p <> q -> (0 <= p < d)%Z -> (0 <= q < d)%Z -> (0 <= i < nc)%Z -> zlen A = (d * nc)%Z ->
  exists c s A1, givens_at (N := N) A (p + i * d) (q + i * d) = Ok (A1, c, s) /\ c * c + s * s = 1 /\
   wp (for_up (i + 1) nc (fun j A => rotv (N := N) c s A (p + j * d) (q + j * d)) A1) (fun A' => zlen A' = zlen A /\ me d A' q i = 0 /\
    forall r j, (0 <= r < d)%Z -> (0 <= j < nc)%Z -> me d A' r j = if (i <=? j)%Z then rotrow p q c s (me d A) r j else me d A r j).
Proof.
  intros D Hp Hq Hi L. destruct (givens_exact eps zero infty zero_0 (me d A p i) (me d A q i)) as (c & s & E & CS & Z & _). exists c, s. eexists. split; [|split; [exact CS|]].
  { unfold givens_at. rcar. rewrite !(rd_mr d nc) by lia. cbn [bind]. rewrite E. rewrite (wr_mr d nc) by lia. cbn [bind]. rewrite (wr_mr d nc) by (rewrite ?zlen_zupd; lia). reflexivity. }
  apply wp_for_up with (I := fun k A' => zlen A' = zlen A /\ forall r j, (0 <= r < d)%Z -> (0 <= j < nc)%Z -> me d A' r j = if ((i <=? j) && (j <? k))%Z then rotrow p q c s (me d A) r j else me d A r j); [lia| | |].
  - rewrite !zlen_zupd. split; [reflexivity|]. intros r j Hr Hj. rewrite (mr_upd d nc) by (rewrite ?zlen_zupd; lia). rewrite (mr_upd d nc) by lia. unfold rotrow.
    destruct (Z.eqb_spec j i) as [->|].
    + destruct (Z.leb_spec i i), (Z.ltb_spec i (i + 1)); try lia. cbn [andb]. rewrite !andb_true_r. destruct (Z.eqb_spec r q) as [->|]; [|reflexivity]. destruct (Z.eqb_spec q p); [lia|]. symmetry. exact Z.
    + rewrite !andb_false_r. destruct (Z.leb_spec i j), (Z.ltb_spec j (i + 1)); try lia; reflexivity.
  - intros k A2 Hk (L2 & V). rewrite (rotv_mr d nc) by lia. apply wp_ok. rewrite !zlen_zupd. split; [exact L2|]. intros r j Hr Hj. rewrite (mr_upd d nc) by (rewrite ?zlen_zupd; lia). rewrite (mr_upd d nc) by lia. rewrite !V by lia. rewrite Z.ltb_irrefl, andb_false_r.
    destruct (Z.eqb_spec j k) as [->|].
    + rewrite !andb_true_r. destruct (Z.leb_spec i k), (Z.ltb_spec k (k + 1)); try lia. cbn [andb]. unfold rotrow. destruct (Z.eqb_spec r q) as [->|]; [destruct (Z.eqb_spec q p); [lia|reflexivity]|]. destruct (Z.eqb_spec r p); rewrite ?Z.ltb_irrefl; reflexivity.
    + rewrite !andb_false_r. destruct (Z.ltb_spec j k), (Z.ltb_spec j (k + 1)); try lia; reflexivity.
  - intros A2 (L2 & V). split; [exact L2|]. split.
    + rewrite V by lia. destruct (Z.leb_spec i i), (Z.ltb_spec i nc); try lia. cbn [andb]. unfold rotrow. rewrite Z.eqb_refl. destruct (Z.eqb_spec q p); [lia|exact Z].
    + intros r j Hr Hj. rewrite V by lia. destruct (Z.ltb_spec j nc); [|lia]. now rewrite andb_true_r.
Qed.
Lemma copycols d nc lo hi m (Rm A : arr) (f : Z -> Z) : (0 <= d)%Z -> (0 <= lo <= hi)%Z -> (hi <= nc)%Z -> zlen A = (d * nc)%Z -> (d <= m)%Z -> zlen Rm = (m * m)%Z -> (forall j, (lo <= j < hi)%Z -> (0 <= f j < m)%Z) ->
  wp (for_up lo hi (fun j R => for_up 0 d (fun i R => v <- rd Rm (i + f j * m) ;; wr R (i + j * d) v) R) A) (fun A' => zlen A' = (d * nc)%Z /\
    forall i j, (0 <= i < d)%Z -> (0 <= j < nc)%Z -> me d A' i j = if ((lo <=? j) && (j <? hi))%Z then me m Rm i (f j) else me d A i j).
Proof.
  intros Hd Hl Hh L Hm LR Hf.
  apply wp_for_up with (I := fun k A' => zlen A' = (d * nc)%Z /\ forall i j, (0 <= i < d)%Z -> (0 <= j < nc)%Z -> me d A' i j = if ((lo <=? j) && (j <? k))%Z then me m Rm i (f j) else me d A i j); [lia| | |].
  - split; [exact L|]. intros i j _ _. destruct (Z.leb_spec lo j), (Z.ltb_spec j lo); try lia; reflexivity.
  - intros k A1 Hk (L1 & V1). specialize (Hf k Hk).
    apply wp_for_up with (I := fun l A' => zlen A' = (d * nc)%Z /\ forall i j, (0 <= i < d)%Z -> (0 <= j < nc)%Z -> me d A' i j = if ((j =? k) && (i <? l))%Z then me m Rm i (f k) else me d A1 i j); [lia| | |].
    + split; [exact L1|]. intros i j Hi' Hj. destruct (Z.ltb_spec i 0); [lia|]. now rewrite andb_false_r.
    + intros l A2 Hl' (L2 & V2). rewrite rd_me by lia. cbn [bind]. rewrite (wr_mr d nc) by lia. apply wp_ok. rewrite zlen_zupd. split; [exact L2|]. intros i j Hi' Hj. rewrite (mr_upd d nc) by lia. rewrite V2 by lia.
      destruct (Z.eqb_spec i l) as [->|]; destruct (Z.eqb_spec j k) as [->|]; cbn [andb]; try reflexivity.
      * destruct (Z.ltb_spec l (l + 1)); [reflexivity|lia].
      * destruct (Z.ltb_spec i l), (Z.ltb_spec i (l + 1)); try lia; reflexivity.
    + intros A2 (L2 & V2). split; [exact L2|]. intros i j Hi' Hj. rewrite V2, V1 by lia. destruct (Z.eqb_spec j k) as [->|]; cbn [andb].
      * destruct (Z.ltb_spec i d), (Z.leb_spec lo k), (Z.ltb_spec k (k + 1)); try lia. reflexivity.
      * destruct (Z.ltb_spec j k), (Z.ltb_spec j (k + 1)); try lia; reflexivity.
  - intros A1 H. exact H.
Qed.
Lemma row_ok m d idx (Q t : arr) : (0 <= d <= m)%Z -> (0 <= idx < m)%Z -> zlen Q = (m * m)%Z -> zlen t = d ->
  wp (for_up 0 d (fun j t => v <- rd Q (idx + j * m) ;; wr t j v) t) (fun t' => zlen t' = d /\ forall j, (0 <= j < d)%Z -> zn 0 t' j = me m Q idx j).
Proof.
  intros Hd Hi L Lt. apply wp_for_up with (I := fun k t' => zlen t' = d /\ forall j, (0 <= j < k)%Z -> zn 0 t' j = me m Q idx j); [lia| | |].
  - split; [exact Lt|]. intros; lia.
  - intros k t1 Hk (L1 & V1). rewrite rd_me by lia. cbn [bind]. rewrite wr_ok by lia. apply wp_ok. rewrite zlen_zupd. split; [exact L1|].
    intros i Hi'. rewrite zn_zupd by lia. destruct (Z.eqb_spec i k) as [->|]; [reflexivity|]. apply V1; lia.
  - intros t1 H. exact H.
Qed.
(** first sweep: only one row of Q is formed *)
Lemma cd_sweep1 n idx S G0 (q R : arr) : (0 <= idx <= n)%Z -> zlen q = (n + 1)%Z -> zlen R = ((n + 1) * n)%Z ->
  qrs (n + 1) n 1 S G0 (me (n + 1) R) -> hess n idx (me (n + 1) R) -> (forall j, (0 <= j <= n)%Z -> zn 0 q j = G0 idx j) ->
  wp (for_up idx n (fun i st => cd_rot1 (N := N) n i st) (q, R)) (fun st => zlen (fst st) = (n + 1)%Z /\ zlen (snd st) = ((n + 1) * n)%Z /\
    exists G, qrs (n + 1) n 1 S G (me (n + 1) (snd st)) /\ hess n n (me (n + 1) (snd st)) /\ forall j, (0 <= j <= n)%Z -> zn 0 (fst st) j = G idx j).
Proof.
  intros Hi Lq LR I H EQ.
  apply wp_for_up with (I := fun k st => zlen (fst st) = (n + 1)%Z /\ zlen (snd st) = ((n + 1) * n)%Z /\
    exists G, qrs (n + 1) n 1 S G (me (n + 1) (snd st)) /\ hess n k (me (n + 1) (snd st)) /\ forall j, (0 <= j <= n)%Z -> zn 0 (fst st) j = G idx j); [lia| | |].
  - cbn [fst snd]. do 2 (split; [assumption|]). exists G0. auto.
  - intros k [q1 R1] Hk (L1 & L2 & G & J & JH & JQ). cbn [fst snd] in *. unfold cd_rot1.
    destruct (givens_rows_mr (n + 1) n k (k + 1) k R1) as (c & s & A1 & E & CS & W); try lia. rewrite E. cbn [bind]. apply wp_bind. eapply wp_mono; [exact W|]. cbv beta. intros R3 (M3 & Z3 & V3).
    assert (VR : forall r j, (0 <= r <= n)%Z -> (0 <= j < n)%Z -> me (n + 1) R3 r j = rotrow k (k + 1) c s (me (n + 1) R1) r j).
    { intros r j Hr Hj. rewrite V3 by lia. destruct (Z.leb_spec k j); [reflexivity|]. unfold rotrow.
      assert (Z1 : me (n + 1) R1 k j = 0) by (apply JH; try lia; destruct (Z.ltb_spec j k); lia). assert (Z2 : me (n + 1) R1 (k + 1) j = 0) by (apply JH; try lia; destruct (Z.ltb_spec j k); lia). rewrite Z1, Z2.
      destruct (Z.eqb_spec r k) as [->|]; [rewrite Z1; ring|]. destruct (Z.eqb_spec r (k + 1)) as [->|]; [rewrite Z2; ring|reflexivity]. }
    unfold rotv. rcar. rewrite !(rd_ok 0) by lia. cbn [bind]. unfold applyGivens. rnum. rewrite wr_ok by lia. cbn [bind]. rewrite wr_ok by (rewrite zlen_zupd; lia). cbn [bind].
    apply wp_ok. cbn [fst snd]. rewrite !zlen_zupd. split; [exact L1|]. split; [exact (eq_trans M3 L2)|]. exists (rotcol k (k + 1) c s G). split; [|split].
    + apply (qrs_rot (n + 1) n 1 S G (me (n + 1) R1) k (k + 1) c s); try lia; try assumption; [reflexivity|]. intros i j Hi' Hj. apply VR; lia.
    + apply (hess_rot n k c s (me (n + 1) R1)); auto; lia.
    + intros j Hj. rewrite !zn_zupd by (rewrite ?zlen_zupd; lia). unfold rotcol. rewrite !JQ by lia. destruct (Z.eqb_spec j (k + 1)) as [->|]; [destruct (Z.eqb_spec (k + 1) k); [lia|reflexivity]|]. destruct (Z.eqb_spec j k); reflexivity.
  - intros st K. exact K.
Qed.
(** second sweep: only the diagonal of R is formed *)
Lemma cd_sweep2 n sig S G0 F0 (q R : arr) : (0 <= n)%Z -> zlen q = (n + 1)%Z -> zlen R = ((n + 1) * n)%Z ->
  qrs (n + 1) n sig S G0 F0 -> s2inv n n G0 F0 -> (forall j, (0 <= j <= n)%Z -> zn 0 q j = G0 n j) ->
  (forall j, (0 <= j < n)%Z -> me (n + 1) R j j = F0 j j /\ me (n + 1) R n j = 0) ->
  wp (for_dn n 0 (fun i st => cd_rot2 (N := N) n i st) (q, R)) (fun st => zlen (fst st) = (n + 1)%Z /\ zlen (snd st) = ((n + 1) * n)%Z /\
    exists G F, qrs (n + 1) n sig S G F /\ s2inv n 0 G F /\ (forall j, (0 <= j <= n)%Z -> zn 0 (fst st) j = G n j) /\ forall j, (0 <= j < n)%Z -> me (n + 1) (snd st) j j = F j j).
Proof.
  intros Hn Lq LR I H EQ ER.
  apply wp_for_dn with (I := fun k st => zlen (fst st) = (n + 1)%Z /\ zlen (snd st) = ((n + 1) * n)%Z /\
    exists G F, qrs (n + 1) n sig S G F /\ s2inv n k G F /\ (forall j, (0 <= j <= n)%Z -> zn 0 (fst st) j = G n j) /\ (forall j, (0 <= j < n)%Z -> me (n + 1) (snd st) j j = F j j) /\
      forall j, (0 <= j < k)%Z -> me (n + 1) (snd st) n j = 0); [lia| | |].
  - cbn [fst snd]. do 2 (split; [assumption|]). exists G0, F0. do 3 (split; [assumption|]). split; intros j Hj; apply ER; lia.
  - intros k [q1 R1] Hk (L1 & L2 & G & F & J & JH & JQ & JD & JZ). cbn [fst snd] in *. unfold cd_rot2.
    destruct (givens_exact eps zero infty zero_0 (zn 0 q1 n) (zn 0 q1 (k - 1)%Z)) as (c & s & E & CS & Z & _).
    unfold givens_at. rcar. rewrite !(rd_ok 0) by lia. cbn [bind]. rewrite E. rewrite wr_ok by lia. cbn [bind]. rewrite wr_ok by (rewrite zlen_zupd; lia). cbn [bind].
    rewrite (rotv_mr (n + 1) n) by lia. cbn [bind]. apply wp_ok. cbn [fst snd]. rewrite !zlen_zupd. split; [exact L1|]. split; [exact L2|].
    set (F' := fun i j => if (k - 1 <=? j)%Z then rotrow n (k - 1) c s F i j else F i j).
    assert (ZG : rotcol n (k - 1) c s G n (k - 1) = 0). { unfold rotcol. rewrite Z.eqb_refl. destruct (Z.eqb_spec (k - 1) n); [lia|]. rewrite <- !JQ by lia. exact Z. }
    destruct (s2_rot n k c s G F (rotcol n (k - 1) c s G) F' ltac:(lia) JH ZG) as [K VR]; [reflexivity|reflexivity|].
    exists (rotcol n (k - 1) c s G), F'. split; [|split; [exact K|split; [|split]]].
    + apply (qrs_rot (n + 1) n sig S G F n (k - 1) c s); try lia; try assumption; [reflexivity|]. intros i j Hi' Hj. apply VR; lia.
    + intros j Hj. rewrite !zn_zupd by (rewrite ?zlen_zupd; lia). unfold rotcol. destruct (Z.eqb_spec j (k - 1)) as [->|].
      * destruct (Z.eqb_spec (k - 1) n); [lia|]. rewrite <- !JQ by lia. symmetry. exact Z.
      * rewrite <- !JQ by lia. destruct (Z.eqb_spec j n); reflexivity.
    + intros j Hj. rewrite (mr_upd (n + 1) n) by (rewrite ?zlen_zupd; lia). rewrite (mr_upd (n + 1) n) by lia. rewrite VR by lia. unfold rotrow. destruct (Z.eqb_spec j n); [lia|].
      destruct (Z.eqb_spec j (k - 1)) as [->|]; cbn [andb]; [|apply JD; lia]. destruct JH as (_ & B & _). rewrite (B (k - 1)%Z) by lia. rewrite JD, JZ by lia. ring.
    + intros j Hj. rewrite (mr_upd (n + 1) n) by (rewrite ?zlen_zupd; lia). rewrite (mr_upd (n + 1) n) by lia. destruct (Z.eqb_spec j (k - 1)); [lia|]. rewrite !andb_false_r. apply JZ; lia.
  - intros st (A & B & G & F & J & JH & JQ & JD & _). do 2 (split; [assumption|]). exists G, F. auto.
Qed.
Theorem calcdet_delete_ok w idx So : sizes w -> (0 <= sc_n w < sc_max w)%Z -> (0 <= idx <= sc_n w)%Z -> qrs (sc_n w + 1) (sc_n w + 1) 1 So (Qf w) (Rf w) -> upper (sc_n w + 1) (Rf w) ->
  wp (calcDetSchur (N := N) idx w) (fun x => sign_of x (det (nat_n (sc_n w)) (fun i j => So (skip idx i) (skip idx j)))).
Proof.
  intros Z Hn Hi I U. destruct Z as [Zn ZS ZQ ZR Zjc Zidx Ztyp]. unfold calcDetSchur. destruct (Z.leb_spec (sc_n w) 0) as [Z0|Np].
  { apply wp_ok. replace (sc_n w) with 0%Z by lia. change (sign_of 1 1). split; [now left|]. rewrite Rabs_R1. ring. }
  destruct (Z.ltb_spec idx 0); [lia|]. set (n := sc_n w) in *. set (m := sc_max w) in *. replace (n + 1 - 1)%Z with n by lia.
  apply wp_bind. eapply wp_mono; [apply (copycols (n + 1) n 0 idx m (sc_R w) _ (fun j => j)); try assumption; try lia; rewrite ?zlen_rep; try reflexivity; nia|]. cbv beta. intros R1 (L1 & V1).
  apply wp_bind. eapply wp_mono; [apply (copycols (n + 1) n idx n m (sc_R w) R1 (fun j => (j + 1)%Z)); try assumption; lia|]. cbv beta. intros R2 (L2 & V2).
  apply wp_bind. eapply wp_mono; [apply (row_ok m (n + 1) idx (sc_Q w)); try assumption; rewrite ?zlen_rep; lia|]. cbv beta. intros q1 (Lq & Vq).
  assert (VR : forall i j, (0 <= i <= n)%Z -> (0 <= j < n)%Z -> me (n + 1) R2 i j = Rf w i (skip idx j)).
  { intros i j Hi' Hj. rewrite V2 by lia. unfold skip. destruct (Z.leb_spec idx j), (Z.ltb_spec j n), (Z.ltb_spec j idx); try lia; cbn [andb]; [reflexivity|]. rewrite V1 by lia. destruct (Z.leb_spec 0 j), (Z.ltb_spec j idx); try lia. reflexivity. }
  assert (I1 : qrs (n + 1) n 1 (fun i j => So i (skip idx j)) (Qf w) (me (n + 1) R2)) by (apply (qrs_dropcol n idx 1 So (Qf w) (Rf w)); auto; lia).
  assert (H1 : hess n idx (me (n + 1) R2)).
  { intros i j Hj Hi' Hl. rewrite VR by (destruct (Z.ltb_spec j idx); lia). apply U; unfold skip; destruct (Z.ltb_spec j idx); lia. }
  apply wp_bind. eapply wp_mono; [apply (cd_sweep1 n idx (fun i j => So i (skip idx j)) (Qf w) q1 R2); auto; try lia; intros j Hj; apply Vq; lia|]. cbv beta. intros [q3 R3] (L3 & L4 & G & I3 & H3 & Q3). cbn [fst snd] in *.
  set (S1 := fun i j => So (mvl idx n i) (skip idx j)). set (G1 := fun i j => G (mvl idx n i) j).
  assert (I4 : qrs (n + 1) n (sg (n - idx)) S1 G1 (me (n + 1) R3)) by (apply (qrs_move n n idx _ G (me (n + 1) R3) S1 G1 Hi I3); reflexivity).
  assert (H4 : s2inv n n G1 (me (n + 1) R3)).
  { split; [intros; lia|]. split; [intros j Hj; apply H3; try lia; destruct (Z.ltb_spec j n); lia|]. intros i j Hj Hi'. apply H3; try lia. destruct (Z.ltb_spec j n); lia. }
  apply wp_bind. eapply wp_mono; [apply (cd_sweep2 n (sg (n - idx)) S1 G1 (me (n + 1) R3) q3 R3); auto; try lia|].
  { intros j Hj. rewrite Q3 by lia. unfold G1. f_equal. unfold mvl. destruct (Z.ltb_spec n idx); [lia|]. now rewrite Z.ltb_irrefl. }
  { intros j Hj. split; [reflexivity|]. apply (proj1 (proj2 H4)). exact Hj. }
  cbv beta. intros [q5 R5] (L5 & L6 & G5 & F5 & I5 & (A5 & _ & U5) & Q5 & D5). cbn [fst snd] in *.
  rcar. rewrite (rd_ok 0) by lia. cbn [bind]. rewrite (Q5 n) by lia.
  destruct (qrs_reduce n (sg (n - idx)) S1 G5 F5) as [E1 I6]; auto; try lia.
  assert (ES : forall i j, (0 <= i < n)%Z -> (0 <= j < n)%Z -> So (skip idx i) (skip idx j) = S1 i j).
  { intros i j Hi' Hj. unfold S1. f_equal. unfold skip, mvl. destruct (Z.ltb_spec i idx); [reflexivity|]. destruct (Z.ltb_spec i n); [reflexivity|lia]. }
  rewrite (det_ext (nat_n n) _ S1) by (intros i j Hi' Hj; apply ES; lia).
  destruct (flip_sign_spec eps zero infty n idx (G5 n n) Hi E1) as [[F P]|[F P]]; rcar; rewrite F.
  - assert (ER0 : rd R5 0 = Ok (F5 0%Z 0%Z)). { rewrite <- D5 by lia. apply (rd_mr (n + 1) n R5 0 0); lia. }
    rewrite ER0. cbn [bind].
    assert (EW0 : forall v, wr R5 0 v = Ok (zupd R5 (0 + 0 * (n + 1)) v)). { intros v. apply (wr_mr (n + 1) n R5 0 0); lia. }
    rewrite EW0. cbn [bind]. rnum. set (F6 := fun i j => if (i =? 0)%Z then - F5 i j else F5 i j).
    assert (I7 : qrs n n 1 S1 (fun i j => if (j =? 0)%Z then - G5 i j else G5 i j) F6).
    { replace 1 with (- (G5 n n * sg (n - idx))) by lra. apply (qrs_neg n _ S1 G5 F5); auto. }
    assert (U6 : upper n F6). { intros i j Hj Hi'. unfold F6. rewrite (U5 i j) by lia. destruct (i =? 0)%Z; [apply Ropp_0|reflexivity]. }
    rewrite (qrs_detS n S1 _ F6 ltac:(lia) I7 U6).
    apply (det_sign_ok eps zero infty (n + 1) n _ F6); [lia|]. intros i Hi'. rewrite (rd_mr (n + 1) n) by (rewrite ?zlen_zupd; lia). f_equal. rewrite (mr_upd (n + 1) n) by lia. unfold F6. destruct (Z.eqb_spec i 0) as [->|]; [reflexivity|]. cbn [andb]. apply D5; lia.
  - cbn [bind]. rewrite P in I6. rewrite (qrs_detS n S1 G5 F5) by (try exact I6; try lia; exact U5).
    apply (det_sign_ok eps zero infty (n + 1) n R5 F5); [lia|]. intros i Hi'. rewrite (rd_mr (n + 1) n) by lia. f_equal. apply D5; lia.
Qed.
End D.
