(** Orthogonal factorisations of real matrices under the elementary steps of an update. *)
From Verif Require Import Base RSum LinSpec Det.
Local Open Scope R_scope.

Notation nat_n n := (Z.to_nat n).
Definition kd (i j : Z) : R := if (i =? j)%Z then 1 else 0.
Lemma kd_same i : kd i i = 1. Proof. unfold kd. now rewrite Z.eqb_refl. Qed.
Lemma kd_ne i j : i <> j -> kd i j = 0. Proof. intros. unfold kd. destruct (Z.eqb_spec i j); congruence. Qed.

(** Q is orthogonal of size n with determinant-scaling sg, Q times the first nc
    columns of R gives S *)
Record qrs (n nc : Z) (sig : R) (S Q R : Z -> Z -> R) : Prop := {
  q_prod : forall i j, (0 <= i < n)%Z -> (0 <= j < nc)%Z -> rsum 0 n (fun k => Q i k * R k j) = S i j;
  q_row : forall i j, (0 <= i < n)%Z -> (0 <= j < n)%Z -> rsum 0 n (fun k => Q i k * Q j k) = kd i j;
  q_col : forall i j, (0 <= i < n)%Z -> (0 <= j < n)%Z -> rsum 0 n (fun k => Q k i * Q k j) = kd i j;
  q_det : forall M, det (nat_n n) (TM (nat_n n) Q M) = sig * det (nat_n n) M
}.
Lemma rsum_pull2 n p q F : p <> q -> (0 <= p < n)%Z -> (0 <= q < n)%Z ->
  rsum 0 n F = F p + F q + rsum 0 n (fun k => if (k =? p)%Z || (k =? q)%Z then 0 else F k).
Proof.
  intros D Hp Hq.
  rewrite (rsum_ext 0 n F (fun k => ((if (k =? p)%Z then F k else 0) + (if (k =? q)%Z then F k else 0)) + (if (k =? p)%Z || (k =? q)%Z then 0 else F k))).
  - rewrite rsum_plus, rsum_plus. rewrite (rsum_delta 0 n p) by first [lia | intros i Hi Ni; destruct (Z.eqb_spec i p); [lia|reflexivity]]. rewrite (rsum_delta 0 n q) by first [lia | intros i Hi Ni; destruct (Z.eqb_spec i q); [lia|reflexivity]].
    rewrite !Z.eqb_refl. reflexivity.
  - intros i Hi. destruct (Z.eqb_spec i p), (Z.eqb_spec i q); cbn [orb]; try congruence; lra.
Qed.
Lemma rsum_rot n p q c s A B : p <> q -> (0 <= p < n)%Z -> (0 <= q < n)%Z -> c * c + s * s = 1 -> forall i j,
  rsum 0 n (fun k => rotcol p q c s A i k * rotrow p q c s B k j) = rsum 0 n (fun k => A i k * B k j).
Proof.
  intros D Hp Hq E i j. rewrite (rsum_pull2 n p q (fun k => A i k * B k j)) by assumption. rewrite (rsum_pull2 n p q) by assumption. unfold rotcol, rotrow. rewrite !Z.eqb_refl. destruct (Z.eqb_spec q p); [lia|].
  f_equal.
  - replace (A i p * B p j + A i q * B q j) with ((c * c + s * s) * (A i p * B p j + A i q * B q j)) by (rewrite E; ring). ring.
  - apply rsum_ext. intros k Hk. destruct (Z.eqb_spec k p), (Z.eqb_spec k q); cbn [orb]; try reflexivity.
Qed.
Lemma qrs_rot n nc sig S Q R p q c s Q' R' : p <> q -> (0 <= p < n)%Z -> (0 <= q < n)%Z -> c * c + s * s = 1 -> qrs n nc sig S Q R ->
  (forall i k, (0 <= i < n)%Z -> (0 <= k < n)%Z -> Q' i k = rotcol p q c s Q i k) ->
  (forall k j, (0 <= k < n)%Z -> (0 <= j < nc)%Z -> R' k j = rotrow p q c s R k j) -> qrs n nc sig S Q' R'.
Proof.
  intros D Hp Hq E [P R1 C1 T] EQ ER. constructor.
  - intros i j Hi Hj. rewrite <- P by assumption. rewrite <- (rsum_rot n p q c s Q R) by assumption. apply rsum_ext. intros k Hk. rewrite EQ, ER by assumption. reflexivity.
  - intros i j Hi Hj. rewrite <- R1 by assumption. rewrite <- (rsum_rot n p q c s Q (fun k j => Q j k)) by assumption. apply rsum_ext. intros k Hk. rewrite !EQ by assumption. reflexivity.
  - intros i j Hi Hj.
    assert (G : forall a b, (0 <= a < n)%Z -> (0 <= b < n)%Z -> rsum 0 n (fun k => Q k a * Q k b) = kd a b) by exact C1.
    rewrite (rsum_ext 0 n _ (fun k => rotcol p q c s Q k i * rotcol p q c s Q k j)) by (intros k Hk; rewrite !EQ by assumption; reflexivity). unfold rotcol.
    assert (L2 : forall a b x y u v, (0 <= u < n)%Z -> (0 <= v < n)%Z -> forall w z, (0 <= w < n)%Z -> (0 <= z < n)%Z ->
      rsum 0 n (fun k => (a * Q k u + b * Q k v) * (x * Q k w + y * Q k z)) = a * x * kd u w + a * y * kd u z + b * x * kd v w + b * y * kd v z).
    { intros a b x y u v Hu Hv w z Hw Hz. rewrite <- !G by assumption. rewrite <- !rsum_scal, <- !rsum_plus. apply rsum_ext. intros k Hk. ring. }
    assert (Lr : forall a b u v, (0 <= u < n)%Z -> (0 <= v < n)%Z -> forall w, (0 <= w < n)%Z ->
      rsum 0 n (fun k => (a * Q k u + b * Q k v) * Q k w) = a * kd u w + b * kd v w).
    { intros a b u v Hu Hv w Hw. rewrite <- !G by assumption. rewrite <- !rsum_scal, <- !rsum_plus. apply rsum_ext. intros k Hk. ring. }
    assert (Ll : forall a b u v, (0 <= u < n)%Z -> (0 <= v < n)%Z -> forall w, (0 <= w < n)%Z ->
      rsum 0 n (fun k => Q k w * (a * Q k u + b * Q k v)) = a * kd w u + b * kd w v).
    { intros a b u v Hu Hv w Hw. rewrite <- !G by assumption. rewrite <- !rsum_scal, <- !rsum_plus. apply rsum_ext. intros k Hk. ring. }
    destruct (Z.eqb_spec i p) as [->|Ni]; [|destruct (Z.eqb_spec i q) as [->|Ni']]; (destruct (Z.eqb_spec j p) as [->|Nj]; [|destruct (Z.eqb_spec j q) as [->|Nj']]);
      first [rewrite L2 by assumption | rewrite Lr by assumption | rewrite Ll by assumption | (apply G; assumption)];
      rewrite ?kd_same, ?(kd_ne p q), ?(kd_ne q p) by congruence; try (rewrite ?(kd_ne p j), ?(kd_ne q j), ?(kd_ne i p), ?(kd_ne i q) by congruence); lra.
  - intros M. rewrite <- T. rewrite <- (det_rot (nat_n n) p q c s (TM (nat_n n) Q M)) by (try assumption; rewrite Z2Nat.id; lia).
    apply det_ext. intros i j Hi Hj. rewrite Z2Nat.id in Hi, Hj by lia. unfold TM, rotrow. rewrite Z2Nat.id by lia.
    rewrite (rsum_ext 0 n _ (fun k => rotcol p q c s Q k i * M k j)) by (intros k Hk; rewrite EQ by assumption; reflexivity). unfold rotcol.
    destruct (i =? p)%Z; [|destruct (i =? q)%Z; [|reflexivity]]; rewrite <- !rsum_scal, <- rsum_plus; apply rsum_ext; intros k Hk; ring.
Qed.
Lemma qrs_ext n nc sig S Q R S' Q' R' : qrs n nc sig S Q R ->
  (forall i j, (0 <= i < n)%Z -> (0 <= j < nc)%Z -> S' i j = S i j) ->
  (forall i j, (0 <= i < n)%Z -> (0 <= j < n)%Z -> Q' i j = Q i j) ->
  (forall i j, (0 <= i < n)%Z -> (0 <= j < nc)%Z -> R' i j = R i j) -> qrs n nc sig S' Q' R'.
Proof.
  intros [P R1 C1 T] ES EQ ER. constructor.
  - intros i j Hi Hj. rewrite ES, <- P by assumption. apply rsum_ext. intros k Hk. now rewrite EQ, ER.
  - intros i j Hi Hj. rewrite <- R1 by assumption. apply rsum_ext. intros k Hk. now rewrite !EQ.
  - intros i j Hi Hj. rewrite <- C1 by assumption. apply rsum_ext. intros k Hk. now rewrite !EQ.
  - intros M. rewrite <- T. apply det_ext. intros i j Hi Hj. unfold TM. apply rsum_ext. intros k Hk. rewrite EQ by lia. reflexivity.
Qed.

(** bordering *)
Lemma qrs_border n (S Q R S' Q' R' : Z -> Z -> R) : (0 <= n)%Z -> qrs n n 1 S Q R ->
  (forall i j, (0 <= i < n)%Z -> (0 <= j < n)%Z -> S' i j = S i j) ->
  (forall i j, (0 <= i < n)%Z -> (0 <= j < n)%Z -> Q' i j = Q i j) ->
  (forall i, (0 <= i < n)%Z -> Q' i n = 0 /\ Q' n i = 0) -> Q' n n = 1 ->
  (forall i j, (0 <= i < n)%Z -> (0 <= j < n)%Z -> R' i j = R i j) ->
  (forall j, (0 <= j < n)%Z -> R' n j = S' n j) ->
  (forall i, (0 <= i <= n)%Z -> R' i n = rsum 0 (n + 1) (fun k => Q' k i * S' k n)) -> qrs (n + 1) (n + 1) 1 S' Q' R'.
Proof.
  intros Hn [P R1 C1 T] ES EQ EZ E1 ER EL EC.
  assert (Row : forall i j, (0 <= i < n + 1)%Z -> (0 <= j < n + 1)%Z -> rsum 0 (n + 1) (fun k => Q' i k * Q' j k) = kd i j).
  { intros i j Hi Hj. rewrite rsum_last by lia. destruct (Z.eq_dec i n) as [->|Ni]; [|destruct (Z.eq_dec j n) as [->|Nj]].
    - rewrite E1. rewrite rsum_0 by (intros k Hk; rewrite (proj2 (EZ k Hk)); ring). destruct (Z.eq_dec j n) as [->|Nj]; [rewrite E1, kd_same; ring|]. rewrite (proj1 (EZ j ltac:(lia))), kd_ne by lia. ring.
    - rewrite E1. rewrite rsum_0 by (intros k Hk; rewrite (proj2 (EZ k Hk)); ring). rewrite (proj1 (EZ i ltac:(lia))), kd_ne by lia. ring.
    - rewrite (proj1 (EZ i ltac:(lia))). rewrite <- R1 by lia. rewrite Rmult_0_l, Rplus_0_r. apply rsum_ext. intros k Hk. rewrite !EQ by lia. reflexivity. }
  constructor.
  - intros i j Hi Hj. destruct (Z.eq_dec j n) as [->|Nj].
    + rewrite (rsum_ext 0 (n + 1) _ (fun k => rsum 0 (n + 1) (fun l => Q' i k * Q' l k * S' l n))).
      * rewrite rsum_swap. rewrite (rsum_ext 0 (n + 1) _ (fun l => kd i l * S' l n)).
        -- rewrite (rsum_delta 0 (n + 1) i) by (try lia; intros l Hl Nl; rewrite kd_ne by lia; ring). rewrite kd_same. ring.
        -- intros l Hl. rewrite <- Row by lia. rewrite <- rsum_scal_r. reflexivity.
      * intros k Hk. rewrite EC by lia. rewrite <- rsum_scal. apply rsum_ext. intros l Hl. ring.
    + rewrite rsum_last by lia. rewrite EL by lia. destruct (Z.eq_dec i n) as [->|Ni].
      * rewrite E1. rewrite rsum_0 by (intros k Hk; rewrite (proj2 (EZ k Hk)); ring). ring.
      * rewrite (proj1 (EZ i ltac:(lia))), (ES i j) by lia. rewrite <- P by lia. rewrite Rmult_0_l, Rplus_0_r. apply rsum_ext. intros k Hk. rewrite EQ, ER by lia. reflexivity.
  - exact Row.
  - intros i j Hi Hj. rewrite rsum_last by lia. destruct (Z.eq_dec i n) as [->|Ni]; [|destruct (Z.eq_dec j n) as [->|Nj]].
    + rewrite E1. rewrite rsum_0 by (intros k Hk; rewrite (proj1 (EZ k Hk)); ring). destruct (Z.eq_dec j n) as [->|Nj]; [rewrite E1, kd_same; ring|]. rewrite (proj2 (EZ j ltac:(lia))), kd_ne by lia. ring.
    + rewrite E1. rewrite rsum_0 by (intros k Hk; rewrite (proj1 (EZ k Hk)); ring). rewrite (proj2 (EZ i ltac:(lia))), kd_ne by lia. ring.
    + rewrite (proj2 (EZ i ltac:(lia))). rewrite <- C1 by lia. rewrite Rmult_0_l, Rplus_0_r. apply rsum_ext. intros k Hk. rewrite !EQ by lia. reflexivity.
  - intros M. rewrite Rmult_1_l. replace (nat_n (n + 1)) with (Datatypes.S (nat_n n)) by lia. apply (DP_border (nat_n n) Q Q').
    + intros i j Hi Hj. rewrite Z2Nat.id in Hi, Hj by lia. now apply EQ.
    + intros i Hi. rewrite Z2Nat.id in * by lia. now apply EZ.
    + rewrite Z2Nat.id by lia. exact E1.
    + intros M'. rewrite T. ring.
Qed.

(** dropping a column of the product *)
Definition skip (m k : Z) : Z := if (k <? m)%Z then k else (k + 1)%Z.
Lemma qrs_dropcol n idx sig S Q R S' R' : (0 <= idx <= n)%Z -> qrs (n + 1) (n + 1) sig S Q R ->
  (forall i j, (0 <= i <= n)%Z -> (0 <= j < n)%Z -> S' i j = S i (skip idx j)) ->
  (forall i j, (0 <= i <= n)%Z -> (0 <= j < n)%Z -> R' i j = R i (skip idx j)) -> qrs (n + 1) n sig S' Q R'.
Proof.
  intros Hi [P R1 C1 T] ES ER. constructor; [|exact R1|exact C1|exact T].
  intros i j Hi' Hj. rewrite ES by lia. rewrite <- P by (unfold skip; destruct (Z.ltb_spec j idx); lia). apply rsum_ext. intros k Hk. rewrite ER by lia. reflexivity.
Qed.
(** moving a row of Q to the end *)
Definition mvl (m n k : Z) : Z := if (k <? m)%Z then k else if (k <? n)%Z then (k + 1)%Z else m.
Lemma rsum_mvl n m F : (0 <= m <= n)%Z -> rsum 0 (n + 1) (fun k => F (mvl m n k)) = rsum 0 (n + 1) F.
Proof.
  intros Hm. rewrite rsum_last by lia. rewrite (rsum_ext 0 n _ (fun k => F (if k <? m then k else k + 1)%Z)).
  - rewrite (rsum_skip n m F Hm). unfold mvl. destruct (Z.ltb_spec n m); [lia|]. rewrite Z.ltb_irrefl. ring.
  - intros k Hk. unfold mvl. destruct (Z.ltb_spec k m); [reflexivity|]. destruct (Z.ltb_spec k n); [reflexivity|lia].
Qed.
Lemma mvl_range m n k : (0 <= m <= n)%Z -> (0 <= k < n + 1)%Z -> (0 <= mvl m n k < n + 1)%Z.
Proof. intros. unfold mvl. destruct (Z.ltb_spec k m), (Z.ltb_spec k n); lia. Qed.
Lemma mvl_inj m n i j : (0 <= m <= n)%Z -> (0 <= i < n + 1)%Z -> (0 <= j < n + 1)%Z -> mvl m n i = mvl m n j -> i = j.
Proof. intros Hm Hi Hj. unfold mvl. destruct (Z.ltb_spec i m), (Z.ltb_spec i n), (Z.ltb_spec j m), (Z.ltb_spec j n); lia. Qed.
Lemma qrs_move n nc m S Q R S' Q' : (0 <= m <= n)%Z -> qrs (n + 1) nc 1 S Q R ->
  (forall i j, (0 <= i <= n)%Z -> (0 <= j < nc)%Z -> S' i j = S (mvl m n i) j) ->
  (forall i j, (0 <= i <= n)%Z -> (0 <= j <= n)%Z -> Q' i j = Q (mvl m n i) j) -> qrs (n + 1) nc (sg (n - m)) S' Q' R.
Proof.
  intros Hm [P R1 C1 T] ES EQ. constructor.
  - intros i j Hi Hj. rewrite ES by lia. rewrite <- P by (try lia; apply mvl_range; lia). apply rsum_ext. intros k Hk. rewrite EQ by lia. reflexivity.
  - intros i j Hi Hj. rewrite (rsum_ext 0 (n + 1) _ (fun k => Q (mvl m n i) k * Q (mvl m n j) k)) by (intros k Hk; rewrite !EQ by lia; reflexivity). rewrite R1 by (apply mvl_range; lia).
    destruct (Z.eq_dec i j) as [->|D]; [now rewrite !kd_same|]. rewrite !kd_ne; auto. intros E. apply mvl_inj in E; lia.
  - intros i j Hi Hj. rewrite (rsum_ext 0 (n + 1) _ (fun k => (fun l => Q l i * Q l j) (mvl m n k))) by (intros k Hk; rewrite !EQ by lia; reflexivity). rewrite (rsum_mvl n m (fun l => Q l i * Q l j)) by lia. apply C1; lia.
  - intros M. replace (nat_n (n + 1)) with (Datatypes.S (nat_n n)) by lia. 
    assert (D : DP (Datatypes.S (nat_n n)) Q). { intros M'. pose proof (T M') as T'. replace (nat_n (n + 1)) with (Datatypes.S (nat_n n)) in T' by lia. rewrite T'. ring. }
    pose proof (DP_movelast (nat_n n) m Q ltac:(lia) D M) as K. rewrite Z2Nat.id in K by lia. rewrite <- K. apply det_ext. intros i j Hi Hj. unfold TM. apply rsum_ext. intros k Hk. rewrite EQ by lia. unfold movelast, mvl. reflexivity.
Qed.
(** the last row of Q reduced to its last entry *)
Lemma qrs_reduce n sig S Q R : (0 <= n)%Z -> qrs (n + 1) n sig S Q R -> (forall k, (0 <= k < n)%Z -> Q n k = 0) ->
  Q n n * Q n n = 1 /\ qrs n n (Q n n * sig) S Q R.
Proof.
  intros Hn [P R1 C1 T] Z.
  assert (E1 : Q n n * Q n n = 1).
  { pose proof (R1 n n ltac:(lia) ltac:(lia)) as E. rewrite rsum_last in E by lia. rewrite rsum_0 in E by (intros k Hk; rewrite Z by lia; ring). rewrite kd_same in E. lra. }
  assert (EZ : forall i, (0 <= i < n)%Z -> Q i n = 0).
  { intros i Hi. pose proof (R1 i n ltac:(lia) ltac:(lia)) as E. rewrite rsum_last in E by lia. rewrite rsum_0 in E by (intros k Hk; rewrite (Z k) by lia; ring). rewrite kd_ne in E by lia.
    replace (Q i n) with (Q i n * (Q n n * Q n n)) by (rewrite E1; ring). replace (Q i n * (Q n n * Q n n)) with ((0 + Q i n * Q n n) * Q n n) by ring. rewrite E. ring. }
  split; [exact E1|]. constructor.
  - intros i j Hi Hj. rewrite <- P by lia. rewrite rsum_last by lia. rewrite EZ by lia. ring.
  - intros i j Hi Hj. rewrite <- R1 by lia. rewrite rsum_last by lia. rewrite EZ by lia. ring.
  - intros i j Hi Hj. rewrite <- C1 by lia. rewrite rsum_last by lia. rewrite Z by lia. ring.
  - intros M. replace (nat_n (n + 1)) with (Datatypes.S (nat_n n)) in T by lia.
    pose proof (DP_reduce (nat_n n) sig Q T) as K. rewrite Z2Nat.id in K by lia. specialize (K ltac:(intros i Hi; split; auto) M).
    replace (det (nat_n n) (TM (nat_n n) Q M)) with ((Q n n * Q n n) * det (nat_n n) (TM (nat_n n) Q M)) by (rewrite E1; ring). rewrite Rmult_assoc, K. ring.
Qed.
Lemma qrs_neg n sig S Q R Q' R' : (0 < n)%Z -> qrs n n sig S Q R ->
  (forall i j, (0 <= i < n)%Z -> (0 <= j < n)%Z -> Q' i j = if (j =? 0)%Z then - Q i j else Q i j) ->
  (forall i j, (0 <= i < n)%Z -> (0 <= j < n)%Z -> R' i j = if (i =? 0)%Z then - R i j else R i j) -> qrs n n (- sig) S Q' R'.
Proof.
  intros Hn [P R1 C1 T] EQ ER. constructor.
  - intros i j Hi Hj. rewrite <- P by lia. apply rsum_ext. intros k Hk. rewrite EQ, ER by lia. destruct (k =? 0)%Z; ring.
  - intros i j Hi Hj. rewrite <- R1 by lia. apply rsum_ext. intros k Hk. rewrite !EQ by lia. destruct (k =? 0)%Z; ring.
  - intros i j Hi Hj. pose proof (C1 i j Hi Hj) as C. rewrite (rsum_ext 0 n _ (fun k => (if (i =? 0)%Z then -1 else 1) * (if (j =? 0)%Z then -1 else 1) * (Q k i * Q k j))).
    + rewrite rsum_scal, C. unfold kd. destruct (Z.eqb_spec i 0), (Z.eqb_spec j 0), (Z.eqb_spec i j); try lia; ring.
    + intros k Hk. rewrite !EQ by lia. destruct (i =? 0)%Z, (j =? 0)%Z; ring.
  - intros M. replace (- sig * det (nat_n n) M) with (- (sig * det (nat_n n) M)) by ring. rewrite <- T. rewrite <- (TM_negcol (nat_n n) 0 Q) by lia. apply det_ext. intros i j Hi Hj. unfold TM. apply rsum_ext. intros k Hk. rewrite EQ by lia. reflexivity.
Qed.
(** the determinant of the product *)
Lemma qrs_detS n S Q R : (0 <= n)%Z -> qrs n n 1 S Q R -> (forall i j, (0 <= j < i)%Z -> (i < n)%Z -> R i j = 0) -> det (nat_n n) S = diagprod (nat_n n) R.
Proof.
  intros Hn [P R1 C1 T] U. rewrite <- det_upper by (intros i j Hi Hj; apply U; lia). rewrite <- (Rmult_1_l (det (nat_n n) S)). rewrite <- T. apply det_ext. intros i j Hi Hj. unfold TM. rewrite Z2Nat.id in * by lia.
  rewrite (rsum_ext 0 n _ (fun k => rsum 0 n (fun l => Q k i * Q k l * R l j))).
  - rewrite rsum_swap. rewrite (rsum_ext 0 n _ (fun l => kd i l * R l j)).
    + rewrite (rsum_delta 0 n i) by (try lia; intros l Hl Nl; rewrite kd_ne by lia; ring). rewrite kd_same. ring.
    + intros l Hl. rewrite <- C1 by lia. rewrite <- rsum_scal_r. reflexivity.
  - intros k Hk. rewrite <- P by lia. rewrite <- rsum_scal. apply rsum_ext. intros l Hl. ring.
Qed.
