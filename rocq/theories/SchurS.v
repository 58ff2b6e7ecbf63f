(** Bookkeeping of the Schur complement: rows and columns of S, the sparse columns of M
    and the update indices under delete and undo. *)
From Verif Require Import Base Types Num LinAlg Schur.
Open Scope Z_scope.

Definition mg {A} (d : A) (m : Z) (a : list A) (i j : Z) : A := zn d a (i + j * m).
Lemma mg_in m i j : 0 <= i < m -> 0 <= j < m -> 0 <= i + j * m < m * m.
Proof. intros. nia. Qed.
Lemma mg_upd {A} (d : A) m (a : list A) p q v i j : 0 <= p < m -> 0 <= q < m -> 0 <= i < m -> 0 <= j < m -> zlen a = m * m ->
  mg d m (zupd a (p + q * m) v) i j = if (i =? p) && (j =? q) then v else mg d m a i j.
Proof.
  intros Hp Hq Hi Hj L. unfold mg. rewrite zn_zupd by (try rewrite L; try apply mg_in; try lia; pose proof (mg_in m i j); lia).
  destruct (Z.eqb_spec (i + j * m) (p + q * m)) as [E|E].
  - assert (j = q) by nia. assert (i = p) by nia. subst. now rewrite !Z.eqb_refl.
  - destruct (Z.eqb_spec i p), (Z.eqb_spec j q); subst; cbn [andb]; congruence.
Qed.
Lemma rd_mg {A} (d : A) m (a : list A) k i j : k = i + j * m -> 0 <= i < m -> 0 <= j < m -> zlen a = m * m -> rd a k = Ok (mg d m a i j).
Proof. intros -> Hi Hj L. apply rd_ok. rewrite L. now apply mg_in. Qed.
Lemma wr_mg {A} m (a : list A) k i j v : k = i + j * m -> 0 <= i < m -> 0 <= j < m -> zlen a = m * m -> wr a k v = Ok (zupd a (i + j * m) v).
Proof. intros -> Hi Hj L. apply wr_ok. rewrite L. now apply mg_in. Qed.
Lemma mg_ext {A} (d : A) m (a b : list A) : zlen a = m * m -> zlen b = m * m -> 0 <= m -> (forall i j, 0 <= i < m -> 0 <= j < m -> mg d m a i j = mg d m b i j) -> a = b.
Proof.
  intros La Lb Hm E. apply (list_ext_zn d); [congruence|]. intros k Hk. rewrite La in Hk. assert (0 < m) by nia.
  specialize (E (k mod m) (k / m)). unfold mg in E. replace (k mod m + k / m * m) with k in E by (rewrite (Z.div_mod k m) at 1; lia). apply E; [apply Z.mod_pos_bound; lia|].
  split; [apply Z.div_pos; lia|]. apply Z.div_lt_upper_bound; lia.
Qed.

(** *** loops that move entries of two lists side by side *)
Section Move2.
Context {A B : Type} (da : A) (db : B).
Lemma copy2_up lo hi d (body : Z -> list A * list B -> res (list A * list B)) x y : lo <= hi -> 0 <= d <= lo -> hi <= zlen x -> hi <= zlen y ->
  (forall i x y, body i (x, y) = (v <- rd x i ;; x <- wr x (i - d) v ;; u <- rd y i ;; y <- wr y (i - d) u ;; Ok (x, y))) ->
  wp (for_up lo hi body (x, y)) (fun p => zlen (fst p) = zlen x /\ zlen (snd p) = zlen y /\
    (forall k, 0 <= k -> zn da (fst p) k = if (lo - d <=? k) && (k <? hi - d) then zn da x (k + d) else zn da x k) /\
    (forall k, 0 <= k -> zn db (snd p) k = if (lo - d <=? k) && (k <? hi - d) then zn db y (k + d) else zn db y k)).
Proof.
  intros Hl Hd Hx Hy E.
  apply wp_for_up with (I := fun i p => zlen (fst p) = zlen x /\ zlen (snd p) = zlen y /\
    (forall k, 0 <= k -> zn da (fst p) k = if (lo - d <=? k) && (k <? i - d) then zn da x (k + d) else zn da x k) /\
    (forall k, 0 <= k -> zn db (snd p) k = if (lo - d <=? k) && (k <? i - d) then zn db y (k + d) else zn db y k)); [lia| | |].
  - cbn [fst snd]. do 2 (split; [reflexivity|]). split; intros k Hk; destruct (Z.leb_spec (lo - d) k), (Z.ltb_spec k (lo - d)); try lia; reflexivity.
  - intros i [x1 y1] Hi (L1 & L2 & V1 & V2). cbn [fst snd] in *. rewrite E. rewrite (rd_ok da) by lia. cbn [bind]. rewrite wr_ok by lia. cbn [bind]. rewrite (rd_ok db) by lia. cbn [bind]. rewrite wr_ok by lia. apply wp_ok. cbn [fst snd].
    rewrite !zlen_zupd. do 2 (split; [assumption|]). split; intros k Hk; rewrite zn_zupd by lia; rewrite ?V1, ?V2 by lia.
    + destruct (Z.eqb_spec k (i - d)) as [->|].
      * destruct (Z.leb_spec (lo - d) (i - d)), (Z.ltb_spec (i - d) (i + 1 - d)); try lia. cbn [andb]. destruct (Z.ltb_spec i (i - d)); [lia|]. rewrite andb_false_r. f_equal; lia.
      * destruct (Z.ltb_spec k (i - d)), (Z.ltb_spec k (i + 1 - d)); try lia; reflexivity.
    + destruct (Z.eqb_spec k (i - d)) as [->|].
      * destruct (Z.leb_spec (lo - d) (i - d)), (Z.ltb_spec (i - d) (i + 1 - d)); try lia. cbn [andb]. destruct (Z.ltb_spec i (i - d)); [lia|]. rewrite andb_false_r. f_equal; lia.
      * destruct (Z.ltb_spec k (i - d)), (Z.ltb_spec k (i + 1 - d)); try lia; reflexivity.
  - intros p H. exact H.
Qed.
Lemma copy2_dn hi lo d (body : Z -> list A * list B -> res (list A * list B)) x y : lo <= hi -> -1 <= lo -> 0 <= d -> hi + d < zlen x -> hi + d < zlen y ->
  (forall i x y, body i (x, y) = (v <- rd x i ;; x <- wr x (i + d) v ;; u <- rd y i ;; y <- wr y (i + d) u ;; Ok (x, y))) ->
  wp (for_dn hi lo body (x, y)) (fun p => zlen (fst p) = zlen x /\ zlen (snd p) = zlen y /\
    (forall k, 0 <= k -> zn da (fst p) k = if (lo + d <? k) && (k <=? hi + d) then zn da x (k - d) else zn da x k) /\
    (forall k, 0 <= k -> zn db (snd p) k = if (lo + d <? k) && (k <=? hi + d) then zn db y (k - d) else zn db y k)).
Proof.
  intros Hl Hlo Hd Hx Hy E.
  apply wp_for_dn with (I := fun i p => zlen (fst p) = zlen x /\ zlen (snd p) = zlen y /\
    (forall k, 0 <= k -> zn da (fst p) k = if (i + d <? k) && (k <=? hi + d) then zn da x (k - d) else zn da x k) /\
    (forall k, 0 <= k -> zn db (snd p) k = if (i + d <? k) && (k <=? hi + d) then zn db y (k - d) else zn db y k)); [lia| | |].
  - cbn [fst snd]. do 2 (split; [reflexivity|]). split; intros k Hk; destruct (Z.ltb_spec (hi + d) k), (Z.leb_spec k (hi + d)); try lia; reflexivity.
  - intros i [x1 y1] Hi (L1 & L2 & V1 & V2). cbn [fst snd] in *. rewrite E. rewrite (rd_ok da) by lia. cbn [bind]. rewrite wr_ok by lia. cbn [bind]. rewrite (rd_ok db) by lia. cbn [bind]. rewrite wr_ok by lia. apply wp_ok. cbn [fst snd].
    rewrite !zlen_zupd. do 2 (split; [assumption|]). split; intros k Hk; rewrite zn_zupd by lia; rewrite ?V1, ?V2 by lia.
    + destruct (Z.eqb_spec k (i + d)) as [->|].
      * destruct (Z.ltb_spec (i - 1 + d) (i + d)), (Z.leb_spec (i + d) (hi + d)); try lia. cbn [andb]. destruct (Z.ltb_spec (i + d) i); [lia|]. cbn [andb]. f_equal; lia.
      * destruct (Z.ltb_spec (i + d) k), (Z.ltb_spec (i - 1 + d) k); try lia; reflexivity.
    + destruct (Z.eqb_spec k (i + d)) as [->|].
      * destruct (Z.ltb_spec (i - 1 + d) (i + d)), (Z.leb_spec (i + d) (hi + d)); try lia. cbn [andb]. destruct (Z.ltb_spec (i + d) i); [lia|]. cbn [andb]. f_equal; lia.
      * destruct (Z.ltb_spec (i + d) k), (Z.ltb_spec (i - 1 + d) k); try lia; reflexivity.
  - intros p H. exact H.
Qed.
(** between the lists and their copies shifted by lo *)
Lemma gather2 lo hi (x : list A) (y : list B) tx ty : lo <= hi -> 0 <= lo -> hi <= zlen x -> hi <= zlen y -> zlen tx = hi - lo -> zlen ty = hi - lo ->
  wp (for_up lo hi (fun i t => let '(tx, ty) := t in p <- rd x i ;; tx <- wr tx (i - lo) p ;; v <- rd y i ;; ty <- wr ty (i - lo) v ;; Ok (tx, ty)) (tx, ty))
   (fun p => zlen (fst p) = hi - lo /\ zlen (snd p) = hi - lo /\ (forall k, 0 <= k < hi - lo -> zn da (fst p) k = zn da x (lo + k)) /\ (forall k, 0 <= k < hi - lo -> zn db (snd p) k = zn db y (lo + k))).
Proof.
  intros Hl Hlo Hx Hy Ltx Lty.
  apply wp_for_up with (I := fun i p => zlen (fst p) = hi - lo /\ zlen (snd p) = hi - lo /\ (forall k, 0 <= k < i - lo -> zn da (fst p) k = zn da x (lo + k)) /\ (forall k, 0 <= k < i - lo -> zn db (snd p) k = zn db y (lo + k))); [lia| | |].
  - cbn [fst snd]. repeat split; auto; intros; lia.
  - intros i [x1 y1] Hi (L1 & L2 & V1 & V2). cbn [fst snd] in *. rewrite (rd_ok da) by lia. cbn [bind]. rewrite wr_ok by lia. cbn [bind]. rewrite (rd_ok db) by lia. cbn [bind]. rewrite wr_ok by lia. apply wp_ok. cbn [fst snd].
    rewrite !zlen_zupd. do 2 (split; [assumption|]). split; intros k Hk; rewrite zn_zupd by lia; (destruct (Z.eqb_spec k (i - lo)) as [->|]; [f_equal; lia|]); [apply V1|apply V2]; lia.
  - intros p H. exact H.
Qed.
Lemma scatter2 lo hi (x : list A) (y : list B) tx ty : lo <= hi -> 0 <= lo -> hi <= zlen x -> hi <= zlen y -> hi - lo <= zlen tx -> hi - lo <= zlen ty ->
  wp (for_up lo hi (fun i p => let '(x, y) := p in k <- rd tx (i - lo) ;; x <- wr x i k ;; v <- rd ty (i - lo) ;; y <- wr y i v ;; Ok (x, y)) (x, y))
   (fun p => zlen (fst p) = zlen x /\ zlen (snd p) = zlen y /\ (forall k, 0 <= k -> zn da (fst p) k = if (lo <=? k) && (k <? hi) then zn da tx (k - lo) else zn da x k) /\
      (forall k, 0 <= k -> zn db (snd p) k = if (lo <=? k) && (k <? hi) then zn db ty (k - lo) else zn db y k)).
Proof.
  intros Hl Hlo Hx Hy Ltx Lty.
  apply wp_for_up with (I := fun i p => zlen (fst p) = zlen x /\ zlen (snd p) = zlen y /\ (forall k, 0 <= k -> zn da (fst p) k = if (lo <=? k) && (k <? i) then zn da tx (k - lo) else zn da x k) /\
      (forall k, 0 <= k -> zn db (snd p) k = if (lo <=? k) && (k <? i) then zn db ty (k - lo) else zn db y k)); [lia| | |].
  - cbn [fst snd]. do 2 (split; [reflexivity|]). split; intros k Hk; destruct (Z.leb_spec lo k), (Z.ltb_spec k lo); try lia; reflexivity.
  - intros i [x1 y1] Hi (L1 & L2 & V1 & V2). cbn [fst snd] in *. rewrite (rd_ok da) by lia. cbn [bind]. rewrite wr_ok by lia. cbn [bind]. rewrite (rd_ok db) by lia. cbn [bind]. rewrite wr_ok by lia. apply wp_ok. cbn [fst snd].
    rewrite !zlen_zupd. do 2 (split; [assumption|]). split; intros k Hk; rewrite zn_zupd by lia; rewrite ?V1, ?V2 by lia; (destruct (Z.eqb_spec k i) as [->|];
      [destruct (Z.leb_spec lo i), (Z.ltb_spec i (i + 1)); try lia; reflexivity | destruct (Z.ltb_spec k i), (Z.ltb_spec k (i + 1)); try lia; reflexivity]).
  - intros p H. exact H.
Qed.
End Move2.

(** *** the shifts of S *)
Section Shift.
Context {A : Type} (d : A).
Definition skz (idx k : Z) : Z := if k <? idx then k else k + 1.
Definition del_shift (m n idx : Z) (S : list A) : res (list A) :=
  S <- for_up 0 idx (fun i S => for_up (idx + 1) n (fun j S => v <- rd S (i * m + j) ;; wr S (i * m + j - 1) v) S) S ;;
  for_up (idx + 1) n (fun i S =>
      S <- for_up 0 idx (fun j S => v <- rd S (i * m + j) ;; wr S ((i - 1) * m + j) v) S ;;
      for_up (idx + 1) n (fun j S => v <- rd S (i * m + j) ;; wr S ((i - 1) * m + j - 1) v) S) S.
(** rows idx+1..n-1 of column c moved up by one into column c' *)
Lemma colup_ok m n idx c c' (S : list A) : 0 <= idx < n -> n <= m -> 0 <= c < m -> 0 <= c' <= c -> zlen S = m * m ->
  wp (for_up (idx + 1) n (fun j S => v <- rd S (c * m + j) ;; wr S (c' * m + j - 1) v) S) (fun S' => zlen S' = m * m /\
    forall a b, 0 <= a < m -> 0 <= b < m -> mg d m S' a b = if (b =? c') && ((idx <=? a) && (a <? n - 1)) then mg d m S (a + 1) c else mg d m S a b).
Proof.
  intros Hi Hn Hc Hc' L.
  apply wp_for_up with (I := fun k S' => zlen S' = m * m /\
    forall a b, 0 <= a < m -> 0 <= b < m -> mg d m S' a b = if (b =? c') && ((idx <=? a) && (a <? k - 1)) then mg d m S (a + 1) c else mg d m S a b); [lia| | |].
  - split; [exact L|]. intros a b _ _. destruct (Z.leb_spec idx a), (Z.ltb_spec a (idx + 1 - 1)); try lia; cbn [andb]; now rewrite ?andb_false_r.
  - intros k S1 Hk (L1 & V1). rewrite (rd_mg d m S1 _ k c) by (try assumption; lia). cbn [bind]. rewrite (wr_mg m S1 _ (k - 1) c') by (try assumption; lia). apply wp_ok. rewrite zlen_zupd. split; [exact L1|].
    intros a b Ha Hb. rewrite mg_upd by (try assumption; lia). rewrite !V1 by lia. destruct (Z.ltb_spec k (k - 1)); [lia|]. rewrite !andb_false_r.
    destruct (Z.eqb_spec b c') as [->|]; [|rewrite andb_false_r; reflexivity]. rewrite andb_true_r. destruct (Z.eqb_spec a (k - 1)) as [->|]; cbn [andb].
    + destruct (Z.leb_spec idx (k - 1)), (Z.ltb_spec (k - 1) (k + 1 - 1)); try lia. cbn [andb]. f_equal; lia.
    + destruct (Z.ltb_spec a (k - 1)), (Z.ltb_spec a (k + 1 - 1)); try lia; reflexivity.
  - intros S1 H. exact H.
Qed.
(** rows 0..idx-1 of column c copied to column c' *)
Lemma colcp_ok m idx c c' (S : list A) : 0 <= idx <= m -> 0 <= c < m -> 0 <= c' < m -> zlen S = m * m -> c' <> c ->
  wp (for_up 0 idx (fun j S => v <- rd S (c * m + j) ;; wr S (c' * m + j) v) S) (fun S' => zlen S' = m * m /\
    forall a b, 0 <= a < m -> 0 <= b < m -> mg d m S' a b = if (b =? c') && (a <? idx) then mg d m S a c else mg d m S a b).
Proof.
  intros Hi Hc Hc' L D.
  apply wp_for_up with (I := fun k S' => zlen S' = m * m /\
    forall a b, 0 <= a < m -> 0 <= b < m -> mg d m S' a b = if (b =? c') && (a <? k) then mg d m S a c else mg d m S a b); [lia| | |].
  - split; [exact L|]. intros a b Ha _. destruct (Z.ltb_spec a 0); [lia|]. now rewrite andb_false_r.
  - intros k S1 Hk (L1 & V1). rewrite (rd_mg d m S1 _ k c) by (try assumption; lia). cbn [bind]. rewrite (wr_mg m S1 _ k c') by (try assumption; lia). apply wp_ok. rewrite zlen_zupd. split; [exact L1|].
    intros a b Ha Hb. rewrite mg_upd by (try assumption; lia). rewrite !V1 by lia. rewrite Z.ltb_irrefl, !andb_false_r.
    destruct (Z.eqb_spec b c') as [->|]; [|rewrite andb_false_r; reflexivity]. rewrite andb_true_r. destruct (Z.eqb_spec a k) as [->|]; cbn [andb].
    + destruct (Z.ltb_spec k (k + 1)); [reflexivity|lia].
    + destruct (Z.ltb_spec a k), (Z.ltb_spec a (k + 1)); try lia; reflexivity.
  - intros S1 H. exact H.
Qed.
Lemma del_shift_ok m n idx (S : list A) : 0 <= idx < n -> n <= m -> zlen S = m * m ->
  wp (del_shift m n idx S) (fun S' => zlen S' = m * m /\
    (forall a b, 0 <= a < n - 1 -> 0 <= b < n - 1 -> mg d m S' a b = mg d m S (skz idx a) (skz idx b)) /\
    (forall a b, 0 <= a < m -> 0 <= b < m -> n <= a \/ n <= b -> mg d m S' a b = mg d m S a b)).
Proof.
  intros Hi Hn L. unfold del_shift. apply wp_bind.
  apply wp_for_up with (I := fun k S' => zlen S' = m * m /\
    forall a b, 0 <= a < m -> 0 <= b < m -> mg d m S' a b = if (b <? k) && ((idx <=? a) && (a <? n - 1)) then mg d m S (a + 1) b else mg d m S a b); [lia| | |].
  { split; [exact L|]. intros a b _ Hb. destruct (Z.ltb_spec b 0); [lia|reflexivity]. }
  { intros k S1 Hk (L1 & V1). eapply wp_mono; [apply (colup_ok m n idx k k S1); try assumption; lia|]. cbv beta. intros S2 (L2 & V2). split; [exact L2|]. intros a b Ha Hb. rewrite V2 by lia.
    destruct (Z.eqb_spec b k) as [->|]; cbn [andb].
    - destruct (Z.ltb_spec k (k + 1)); [|lia]. cbn [andb]. destruct ((idx <=? a) && (a <? n - 1)) eqn:E.
      + rewrite V1 by lia. rewrite Z.ltb_irrefl. reflexivity.
      + rewrite V1 by lia. rewrite Z.ltb_irrefl. reflexivity.
    - rewrite V1 by lia. destruct (Z.ltb_spec b k), (Z.ltb_spec b (k + 1)); try lia; reflexivity. }
  intros S1 (L1 & V1).
  apply wp_for_up with (I := fun k S' => zlen S' = m * m /\
    (forall a b, 0 <= a < n - 1 -> 0 <= b < k - 1 -> mg d m S' a b = mg d m S (skz idx a) (skz idx b)) /\
    (forall a b, 0 <= a < m -> k <= b < m -> mg d m S' a b = mg d m S a b) /\
    (forall a b, 0 <= a < m -> 0 <= b < m -> n <= a -> mg d m S' a b = mg d m S a b)); [lia| | |].
  - split; [exact L1|]. split; [|split].
    + intros a b Ha Hb. rewrite V1 by lia. unfold skz. destruct (Z.ltb_spec b idx); [|lia]. destruct (Z.leb_spec idx a), (Z.ltb_spec a (n - 1)), (Z.ltb_spec a idx); try lia; reflexivity.
    + intros a b Ha Hb. rewrite V1 by lia. destruct (Z.ltb_spec b idx); [lia|reflexivity].
    + intros a b Ha Hb Hna. rewrite V1 by lia. destruct (Z.ltb_spec a (n - 1)); [lia|]. now rewrite !andb_false_r.
  - intros k S2 Hk (L2 & W1 & W2 & W3). apply wp_bind. eapply wp_mono; [apply (colcp_ok m idx k (k - 1) S2); try assumption; lia|]. cbv beta. intros S3 (L3 & V3).
    eapply wp_mono; [apply (colup_ok m n idx k (k - 1) S3); try assumption; lia|]. cbv beta. intros S4 (L4 & V4). split; [exact L4|].
    assert (K3 : forall a, 0 <= a < m -> mg d m S3 a k = mg d m S a k).
    { intros a Ha. rewrite V3 by lia. destruct (Z.eqb_spec k (k - 1)); [lia|]. cbn [andb]. apply W2; lia. }
    split; [|split].
    + intros a b Ha Hb. rewrite V4 by lia. destruct (Z.eqb_spec b (k - 1)) as [->|]; cbn [andb].
      * unfold skz at 2. destruct (Z.ltb_spec (k - 1) idx); [lia|]. replace (k - 1 + 1) with k by lia. unfold skz. destruct (Z.leb_spec idx a), (Z.ltb_spec a (n - 1)), (Z.ltb_spec a idx); try lia; cbn [andb].
        -- apply K3; lia.
        -- rewrite V3 by lia. rewrite Z.eqb_refl. destruct (Z.ltb_spec a idx); [|lia]. cbn [andb]. apply W2; lia.
      * rewrite V3 by lia. destruct (Z.eqb_spec b (k - 1)); [lia|]. cbn [andb]. apply W1; lia.
    + intros a b Ha Hb. rewrite V4 by lia. destruct (Z.eqb_spec b (k - 1)); [lia|]. cbn [andb]. rewrite V3 by lia. destruct (Z.eqb_spec b (k - 1)); [lia|]. cbn [andb]. apply W2; lia.
    + intros a b Ha Hb Hna. rewrite V4 by lia. destruct (Z.ltb_spec a (n - 1)); [lia|]. rewrite !andb_false_r. rewrite V3 by lia. destruct (Z.ltb_spec a idx); [lia|]. rewrite andb_false_r. apply W3; lia.
  - intros S2 (L2 & W1 & W2 & W3). split; [exact L2|]. split; [exact W1|]. intros a b Ha Hb [H|H]; [apply W3; lia|apply W2; lia].
Qed.
(** the entries i of a vector written to row and column c *)
Lemma cross_ok m n c (t S : list A) (body : Z -> list A -> res (list A)) : 0 <= c < m -> 0 <= n <= m -> zlen S = m * m -> n <= zlen t ->
  (forall i S, body i S = (v <- rd t i ;; S <- wr S (c * m + i) v ;; wr S (i * m + c) v)) ->
  wp (for_up 0 n body S) (fun S' => zlen S' = m * m /\
    forall a b, 0 <= a < m -> 0 <= b < m -> mg d m S' a b = if (b =? c) && (a <? n) then zn d t a else if (a =? c) && (b <? n) then zn d t b else mg d m S a b).
Proof.
  intros Hc Hn L Lt E.
  apply wp_for_up with (I := fun k S' => zlen S' = m * m /\
    forall a b, 0 <= a < m -> 0 <= b < m -> mg d m S' a b = if (b =? c) && (a <? k) then zn d t a else if (a =? c) && (b <? k) then zn d t b else mg d m S a b); [lia| | |].
  - split; [exact L|]. intros a b Ha Hb. destruct (Z.ltb_spec a 0), (Z.ltb_spec b 0); try lia. now rewrite !andb_false_r.
  - intros k S1 Hk (L1 & V1). rewrite E. rewrite (rd_ok d) by lia. cbn [bind]. rewrite (wr_mg m S1 _ k c) by (try assumption; lia). cbn [bind]. rewrite (wr_mg m _ _ c k) by (rewrite ?zlen_zupd; try assumption; lia). apply wp_ok. rewrite !zlen_zupd. split; [exact L1|].
    intros a b Ha Hb. rewrite mg_upd by (rewrite ?zlen_zupd; try assumption; lia). rewrite mg_upd by (try assumption; lia). rewrite V1 by lia.
    destruct (Z.eqb_spec a c), (Z.eqb_spec b k), (Z.eqb_spec a k), (Z.eqb_spec b c), (Z.ltb_spec a k), (Z.ltb_spec a (k + 1)), (Z.ltb_spec b k), (Z.ltb_spec b (k + 1)); subst; cbn [andb]; try lia; try reflexivity.
  - intros S1 H. exact H.
Qed.
(** *** the shifts of the undo *)
Definition undo_shift (m n idx : Z) (S : list A) : res (list A) :=
    S <- for_dn (idx - 1) (-1) (fun i S => for_dn (n - 1) (idx - 1) (fun j S => v <- rd S (j + i * m) ;; wr S ((j + 1) + i * m) v) S) S ;;
    for_dn (n - 1) (idx - 1) (fun i S =>
      S <- for_dn (idx - 1) (-1) (fun j S => v <- rd S (j + i * m) ;; wr S (j + (i + 1) * m) v) S ;;
      for_dn (n - 1) (idx - 1) (fun j S => v <- rd S (j + i * m) ;; wr S ((j + 1) + (i + 1) * m) v) S) S.
Lemma coldn_ok m n idx c c' (S : list A) : 0 <= idx <= n -> n < m -> 0 <= c <= c' -> c' < m -> zlen S = m * m ->
  wp (for_dn (n - 1) (idx - 1) (fun j S => v <- rd S (j + c * m) ;; wr S ((j + 1) + c' * m) v) S) (fun S' => zlen S' = m * m /\
    forall a b, 0 <= a < m -> 0 <= b < m -> mg d m S' a b = if (b =? c') && ((idx <? a) && (a <=? n)) then mg d m S (a - 1) c else mg d m S a b).
Proof.
  intros Hi Hn Hc Hc' L.
  apply wp_for_dn with (I := fun k S' => zlen S' = m * m /\
    forall a b, 0 <= a < m -> 0 <= b < m -> mg d m S' a b = if (b =? c') && ((k + 1 <? a) && (a <=? n)) then mg d m S (a - 1) c else mg d m S a b); [lia| | |].
  - split; [exact L|]. intros a b _ _. destruct (Z.ltb_spec (n - 1 + 1) a), (Z.leb_spec a n); try lia; cbn [andb]; now rewrite ?andb_false_r.
  - intros k S1 Hk (L1 & V1). rewrite (rd_mg d m S1 _ k c) by (try assumption; lia). cbn [bind]. rewrite (wr_mg m S1 _ (k + 1) c') by (try assumption; lia). apply wp_ok. rewrite zlen_zupd. split; [exact L1|].
    intros a b Ha Hb. rewrite mg_upd by (try assumption; lia). rewrite !V1 by lia. destruct (Z.ltb_spec (k + 1) k); [lia|]. cbn [andb]. rewrite andb_false_r.
    destruct (Z.eqb_spec b c') as [->|]; [|rewrite andb_false_r; reflexivity]. rewrite andb_true_r. destruct (Z.eqb_spec a (k + 1)) as [->|]; cbn [andb].
    + destruct (Z.ltb_spec (k - 1 + 1) (k + 1)), (Z.leb_spec (k + 1) n); try lia. cbn [andb]. f_equal; lia.
    + destruct (Z.ltb_spec (k + 1) a), (Z.ltb_spec (k - 1 + 1) a); try lia; reflexivity.
  - intros S1 (L1 & V1). split; [exact L1|]. intros a b Ha Hb. rewrite V1 by lia. now replace (idx - 1 + 1) with idx by lia.
Qed.
Lemma colcpd_ok m idx c c' (S : list A) : 0 <= idx <= m -> 0 <= c < m -> 0 <= c' < m -> zlen S = m * m -> c' <> c ->
  wp (for_dn (idx - 1) (-1) (fun j S => v <- rd S (j + c * m) ;; wr S (j + c' * m) v) S) (fun S' => zlen S' = m * m /\
    forall a b, 0 <= a < m -> 0 <= b < m -> mg d m S' a b = if (b =? c') && (a <? idx) then mg d m S a c else mg d m S a b).
Proof.
  intros Hi Hc Hc' L D.
  apply wp_for_dn with (I := fun k S' => zlen S' = m * m /\
    forall a b, 0 <= a < m -> 0 <= b < m -> mg d m S' a b = if (b =? c') && ((k <? a) && (a <? idx)) then mg d m S a c else mg d m S a b); [lia| | |].
  - split; [exact L|]. intros a b Ha _. destruct (Z.ltb_spec (idx - 1) a), (Z.ltb_spec a idx); try lia; cbn [andb]; now rewrite ?andb_false_r.
  - intros k S1 Hk (L1 & V1). rewrite (rd_mg d m S1 _ k c) by (try assumption; lia). cbn [bind]. rewrite (wr_mg m S1 _ k c') by (try assumption; lia). apply wp_ok. rewrite zlen_zupd. split; [exact L1|].
    intros a b Ha Hb. rewrite mg_upd by (try assumption; lia). rewrite !V1 by lia. rewrite Z.ltb_irrefl. cbn [andb]. rewrite !andb_false_r.
    destruct (Z.eqb_spec b c') as [->|]; [|rewrite andb_false_r; reflexivity]. rewrite andb_true_r. destruct (Z.eqb_spec a k) as [->|]; cbn [andb].
    + destruct (Z.ltb_spec (k - 1) k), (Z.ltb_spec k idx); try lia; reflexivity.
    + destruct (Z.ltb_spec k a), (Z.ltb_spec (k - 1) a); try lia; reflexivity.
  - intros S1 (L1 & V1). split; [exact L1|]. intros a b Ha Hb. rewrite V1 by lia. destruct (Z.ltb_spec (-1) a); [reflexivity|lia].
Qed.
Definition usk (idx k : Z) : Z := if k <? idx then k else k - 1.
Lemma undo_shift_ok m n idx (S : list A) : 0 <= idx < n -> n < m -> zlen S = m * m ->
  wp (undo_shift m n idx S) (fun S' => zlen S' = m * m /\
    (forall a b, 0 <= a <= n -> 0 <= b <= n -> a <> idx -> b <> idx -> mg d m S' a b = mg d m S (usk idx a) (usk idx b)) /\
    (forall a b, 0 <= a < m -> 0 <= b < m -> n < a \/ n < b -> mg d m S' a b = mg d m S a b)).
Proof.
  intros Hi Hn L. unfold undo_shift. apply wp_bind.
  apply wp_for_dn with (I := fun k S' => zlen S' = m * m /\
    forall a b, 0 <= a < m -> 0 <= b < m -> mg d m S' a b = if ((k <? b) && (b <? idx)) && ((idx <? a) && (a <=? n)) then mg d m S (a - 1) b else mg d m S a b); [lia| | |].
  { split; [exact L|]. intros a b _ Hb. destruct (Z.ltb_spec (idx - 1) b), (Z.ltb_spec b idx); try lia; reflexivity. }
  { intros k S1 Hk (L1 & V1). eapply wp_mono; [apply (coldn_ok m n idx k k S1); try assumption; lia|]. cbv beta. intros S2 (L2 & V2). split; [exact L2|]. intros a b Ha Hb. rewrite V2 by lia.
    destruct (Z.eqb_spec b k) as [->|]; cbn [andb].
    - destruct (Z.ltb_spec (k - 1) k), (Z.ltb_spec k idx); try lia. cbn [andb]. destruct ((idx <? a) && (a <=? n)) eqn:E; rewrite V1 by lia; rewrite Z.ltb_irrefl; reflexivity.
    - rewrite V1 by lia. destruct (Z.ltb_spec k b), (Z.ltb_spec (k - 1) b); try lia; reflexivity. }
  intros S1 (L1 & V1).
  apply wp_for_dn with (I := fun k S' => zlen S' = m * m /\
    (forall a b, 0 <= a <= n -> 0 <= b <= n -> a <> idx -> b < idx \/ k + 1 < b -> mg d m S' a b = mg d m S (usk idx a) (usk idx b)) /\
    (forall a b, 0 <= a < m -> idx <= b <= k -> mg d m S' a b = mg d m S a b) /\
    (forall a b, 0 <= a < m -> 0 <= b < m -> n < a \/ n < b -> mg d m S' a b = mg d m S a b)); [lia| | |].
  - split; [exact L1|]. split; [|split].
    + intros a b Ha Hb Na [Hb'|Hb']; [|lia]. rewrite V1 by lia. unfold usk. destruct (Z.ltb_spec (-1) b), (Z.ltb_spec b idx); try lia. cbn [andb]. destruct (Z.ltb_spec idx a), (Z.leb_spec a n), (Z.ltb_spec a idx); try lia; reflexivity.
    + intros a b Ha Hb. rewrite V1 by lia. destruct (Z.ltb_spec b idx); [lia|]. rewrite andb_false_r. reflexivity.
    + intros a b Ha Hb Hna. rewrite V1 by lia. destruct Hna; [destruct (Z.leb_spec a n); [lia|]; now rewrite !andb_false_r|]. destruct (Z.ltb_spec b idx); [lia|]. now rewrite andb_false_r.
  - intros k S2 Hk (L2 & W1 & W2 & W3). apply wp_bind. eapply wp_mono; [apply (colcpd_ok m idx k (k + 1) S2); try assumption; lia|]. cbv beta. intros S3 (L3 & V3).
    eapply wp_mono; [apply (coldn_ok m n idx k (k + 1) S3); try assumption; lia|]. cbv beta. intros S4 (L4 & V4). split; [exact L4|].
    assert (K3 : forall a, 0 <= a < m -> mg d m S3 a k = mg d m S a k).
    { intros a Ha. rewrite V3 by lia. destruct (Z.eqb_spec k (k + 1)); [lia|]. cbn [andb]. apply W2; lia. }
    split; [|split].
    + intros a b Ha Hb Na Hb'. rewrite V4 by lia. destruct (Z.eqb_spec b (k + 1)) as [->|]; cbn [andb].
      * unfold usk at 2. destruct (Z.ltb_spec (k + 1) idx); [lia|]. replace (k + 1 - 1) with k by lia. unfold usk. destruct (Z.ltb_spec idx a), (Z.leb_spec a n), (Z.ltb_spec a idx); try lia; cbn [andb].
        -- apply K3; lia.
        -- rewrite V3 by lia. rewrite Z.eqb_refl. destruct (Z.ltb_spec a idx); [|lia]. cbn [andb]. apply W2; lia.
      * rewrite V3 by lia. destruct (Z.eqb_spec b (k + 1)); [lia|]. cbn [andb]. apply W1; lia.
    + intros a b Ha Hb. rewrite V4 by lia. destruct (Z.eqb_spec b (k + 1)); [lia|]. cbn [andb]. rewrite V3 by lia. destruct (Z.eqb_spec b (k + 1)); [lia|]. cbn [andb]. apply W2; lia.
    + intros a b Ha Hb Hna. rewrite V4 by lia. destruct Hna as [H|H].
      * destruct (Z.leb_spec a n); [lia|]. rewrite !andb_false_r. rewrite V3 by lia. destruct (Z.ltb_spec a idx); [lia|]. rewrite andb_false_r. apply W3; lia.
      * destruct (Z.eqb_spec b (k + 1)); [lia|]. cbn [andb]. rewrite V3 by lia. destruct (Z.eqb_spec b (k + 1)); [lia|]. cbn [andb]. apply W3; lia.
  - intros S2 (L2 & W1 & W2 & W3). split; [exact L2|]. split; [|exact W3]. intros a b Ha Hb Na Nb. apply W1; try lia.
Qed.
End Shift.
