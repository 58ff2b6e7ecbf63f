(** Properties of the linear algebra kernels: C27 (Cholesky), C28 (plane
    rotations), C29 and C30 (triangular solves), in exact arithmetic. *)
From Coq Require Import QArith.
From Verif Require Import Base Types Num RSum LinSpec LinAlg.
Local Open Scope R_scope.

Lemma diff_loop_dn hi lo (body : Z -> R -> res R) f a :
  (lo <= hi)%Z -> (forall i s, (lo < i <= hi)%Z -> body i s = Ok (s - f i)) ->
  for_dn hi lo body a = Ok (a - rsum (lo + 1) (hi + 1) f).
Proof.
  intros Hle H.
  assert (W : wp (for_dn hi lo body a) (fun s => s = a - rsum (lo + 1) (hi + 1) f)).
  { apply wp_for_dn with (I := fun i s => s = a - rsum (i + 1) (hi + 1) f); auto.
    - rewrite rsum_empty by lia. lra.
    - intros i s Hi ->. rewrite H by assumption. cbn [wp]. rewrite (rsum_first (i - 1 + 1)) by lia.
      replace (i - 1 + 1)%Z with i by lia. lra. }
  apply wp_inv in W as (s & -> & ->). reflexivity.
Qed.

(** Column-wise storage with leading dimension: distinct pairs have distinct places. *)
Lemma cm_inj ld p q p' q' : (0 <= p < ld)%Z -> (0 <= p' < ld)%Z -> (p + ld * q = p' + ld * q')%Z -> p = p' /\ q = q'.
Proof.
  intros Hp Hp' E. assert (q = q') by (destruct (Z.lt_trichotomy q q') as [L|[L|L]]; auto; exfalso; nia). subst. lia.
Qed.
Lemma cm_in ld n p q m : (0 <= p < n)%Z -> (0 <= q < n)%Z -> (n <= ld)%Z -> (n + ld * (n - 1) <= m)%Z ->
  (0 <= p + ld * q < m)%Z.
Proof. intros. assert (ld * q <= ld * (n - 1))%Z by (apply Z.mul_le_mono_nonneg_l; lia). nia. Qed.

Section Real.
Variables (eps zero infty : R).
Notation N := (RNumT eps zero infty).
Notation z := (zn 0%R).

(** *** C27: the Cholesky factorisation succeeds exactly on positive definite matrices *)

(** The upper triangle of the square matrix stored column-wise in [a]. *)
Definition triu (a : list R) (ld i j : Z) : R := if (i <=? j)%Z then z a (i + ld * j) else 0.
(** The symmetric matrix whose upper triangle is stored in [a]. *)
Definition symm (a : list R) (ld i j : Z) : R := z a (Z.min i j + ld * Z.max i j).

Section Chol.
Variables (n lda : Z) (a : list R).
Hypothesis n_ok : (0 <= n <= lda)%Z.
Hypothesis a_ok : (n + lda * (n - 1) <= zlen a)%Z.

(** Row p of the factor is finished. *)
Definition chol_row (b : list R) (p q : Z) : Prop :=
  rsum 0 (p + 1) (fun k => z b (k + lda * p) * z b (k + lda * q)) = z a (p + lda * q).
Definition chol_inv (i j : Z) (b : list R) : Prop :=
  zlen b = zlen a /\
  (forall p q, (0 <= p <= q)%Z -> (q < n)%Z -> (p < i \/ p = i /\ q < j)%Z -> chol_row b p q) /\
  (forall p, (0 <= p < n)%Z -> (p < i \/ p = i /\ i < j)%Z -> 0 < z b (p + lda * p)) /\
  (forall p q, (0 <= p < lda)%Z -> (0 <= q)%Z -> ~ ((p < i \/ p = i /\ q < j) /\ p <= q < n)%Z -> z b (p + lda * q) = z a (p + lda * q)).

Lemma chol_inv_next i b : (0 <= i < n)%Z -> chol_inv i n b -> chol_inv (i + 1) (i + 1) b.
Proof.
  intros Hi (L & A & B & C). split; [auto|split; [|split]]; intros.
  - apply A; auto; lia.
  - apply B; auto; lia.
  - apply C; auto. lia.
Qed.

(** Writing an entry of row i does not disturb what is there. *)
Lemma chol_inv_write i j b v : (0 <= i <= j)%Z -> (j < n)%Z -> chol_inv i j b ->
  chol_row (zupd b (i + lda * j) v) i j -> (i = j -> 0 < v) -> chol_inv i (j + 1) (zupd b (i + lda * j) v).
Proof.
  intros Hij Hj (L & A & B & C) Row Pos.
  assert (W : forall p q, (0 <= p < n)%Z -> (0 <= q < n)%Z ->
     z (zupd b (i + lda * j) v) (p + lda * q) = if ((p =? i) && (q =? j))%bool then v else z b (p + lda * q)).
  { intros p q Hp Hq.
    rewrite zn_zupd by (rewrite ?L; first [apply (cm_in lda n); lia | nia]).
    destruct (Z.eqb_spec (p + lda * q) (i + lda * j)) as [E|E].
    - apply cm_inj in E as [-> ->]; try lia. now rewrite !Z.eqb_refl.
    - destruct (Z.eqb_spec p i), (Z.eqb_spec q j); subst; try reflexivity. now destruct E. }
  split; [now rewrite zlen_zupd|split; [|split]].
  - intros p q Hp Hq H.
    destruct (Z.eq_dec p i) as [->|Np]; [destruct (Z.eq_dec q j) as [->|Nq]; [exact Row|]|].
    + unfold chol_row. rewrite <- (A i q) by lia. apply rsum_ext. intros k Hk. rewrite !W by lia.
      destruct (Z.eqb_spec q j); [lia|]. rewrite andb_false_r.
      destruct (Z.eqb_spec k i), (Z.eqb_spec i j); cbn [andb]; subst; try reflexivity.
      exfalso; lia.
    + unfold chol_row. rewrite <- (A p q) by lia. apply rsum_ext. intros k Hk. rewrite !W by lia.
      destruct (Z.eqb_spec k i); [lia|]. reflexivity.
  - intros p Hp H. rewrite W by lia. destruct (Z.eqb_spec p i), (Z.eqb_spec p j); cbn [andb]; subst.
    + apply Pos; auto.
    + apply B; auto. lia.
    + apply B; auto. lia.
    + apply B; auto. lia.
  - intros p q Hp Hq H. rewrite zn_zupd by (rewrite ?L; first [apply (cm_in lda n); lia | nia]).
    destruct (Z.eqb_spec (p + lda * q) (i + lda * j)) as [E|E].
    + apply cm_inj in E as [-> ->]; lia.
    + apply C; auto. lia.
Qed.

(** What the invariant says about the leading block. *)
Lemma chol_inv_gram i b : (0 <= i < n)%Z -> chol_inv i i b -> gram i (triu b lda) (symm a lda).
Proof.
  intros Hi (L & A & B & C) p q Hp Hq.
  assert (H : forall p q, (0 <= p <= q)%Z -> (q < i)%Z -> rsum 0 i (fun k => triu b lda k p * triu b lda k q) = symm a lda p q).
  { clear p q Hp Hq. intros p q Hp Hq. unfold symm. rewrite Z.min_l, Z.max_r by lia.
    rewrite <- (A p q) by lia. rewrite (rsum_split 0 (p + 1)) by lia.
    rewrite (rsum_0 (p + 1)).
    - rewrite Rplus_0_r. apply rsum_ext. intros k Hk. unfold triu. destruct (Z.leb_spec k p), (Z.leb_spec k q); lia || reflexivity.
    - intros k Hk. unfold triu. destruct (Z.leb_spec k p); [lia|]. ring. }
  destruct (Z.le_ge_cases p q) as [L1|L1]; [apply H; lia|].
  unfold symm. rewrite Z.min_comm, Z.max_comm. fold (symm a lda q p). rewrite <- (H q p) by lia.
  apply rsum_ext; intros; ring.
Qed.
Lemma chol_inv_gram_n b : chol_inv n n b -> gram n (triu b lda) (symm a lda).
Proof.
  intros (L & A & B & C) p q Hp Hq.
  assert (H : forall p q, (0 <= p <= q)%Z -> (q < n)%Z -> rsum 0 n (fun k => triu b lda k p * triu b lda k q) = symm a lda p q).
  { clear p q Hp Hq. intros p q Hp Hq. unfold symm. rewrite Z.min_l, Z.max_r by lia.
    rewrite <- (A p q) by lia. rewrite (rsum_split 0 (p + 1)) by lia.
    rewrite (rsum_0 (p + 1)).
    - rewrite Rplus_0_r. apply rsum_ext. intros k Hk. unfold triu. destruct (Z.leb_spec k p), (Z.leb_spec k q); lia || reflexivity.
    - intros k Hk. unfold triu. destruct (Z.leb_spec k p); [lia|]. ring. }
  destruct (Z.le_ge_cases p q) as [L1|L1]; [apply H; lia|].
  unfold symm. rewrite Z.min_comm, Z.max_comm. fold (symm a lda q p). rewrite <- (H q p) by lia.
  apply rsum_ext; intros; ring.
Qed.
Lemma triu_upper m b : upper_tri m (triu b lda).
Proof. intros i j Hj Hi. unfold triu. destruct (Z.leb_spec i j); [lia|reflexivity]. Qed.

(** A non-positive pivot: the next leading block is not positive definite. *)
Lemma chol_inv_pivot i b : (0 <= i < n)%Z -> chol_inv i i b ->
  z a (i + lda * i) - rsum 0 i (fun k => z b (k + lda * i) * z b (k + lda * i)) <= 0 ->
  posdef i (symm a lda) /\ ~ posdef (i + 1) (symm a lda).
Proof.
  intros Hi I P. assert (G := chol_inv_gram i b Hi I). destruct I as (L & A & B & C).
  assert (D : forall p, (0 <= p < i)%Z -> triu b lda p p <> 0).
  { intros p Hp. unfold triu. rewrite Z.leb_refl. assert (0 < z b (p + lda * p)) by (apply B; lia). lra. }
  split; [now apply (gram_posdef i (triu b lda)); auto using triu_upper|].
  intros PD.
  destruct (pivot_value i (triu b lda) (symm a lda)) as (x & Xi & Ex); auto using triu_upper; try lia.
  - intros k Hk. unfold symm. now rewrite Z.min_comm, Z.max_comm.
  - intros p Hp. unfold symm. rewrite Z.min_l, Z.max_r by lia. rewrite <- (A p i) by lia.
    rewrite (rsum_split 0 (p + 1)) by lia. rewrite (rsum_0 (p + 1)).
    + rewrite Rplus_0_r. apply rsum_ext. intros k Hk. unfold triu. destruct (Z.leb_spec k p), (Z.leb_spec k i); lia || reflexivity.
    + intros k Hk. unfold triu. destruct (Z.leb_spec k p); [lia|]. ring.
  - assert (Q := PD x). rewrite Ex in Q.
    rewrite (rsum_ext 0 i (fun k => triu b lda k i * triu b lda k i) (fun k => z b (k + lda * i) * z b (k + lda * i))) in Q.
    + unfold symm in Q. rewrite Z.min_id, Z.max_id in Q.
      assert (0 < z a (i + lda * i) - rsum 0 i (fun k => z b (k + lda * i) * z b (k + lda * i))); [|lra].
      apply Q. exists i. split; [lia|]. rewrite Xi. lra.
    + intros k Hk. unfold triu. destruct (Z.leb_spec k i); [reflexivity|lia].
Qed.

Lemma chol_loop : wp (dpotrf (N := N) n a lda) (fun r => let '(info, b) := r in
   (info = 0%Z /\ chol_inv n n b) \/
   exists i c, (info = i + 1)%Z /\ (0 <= i < n)%Z /\ chol_inv i i c /\
     b = zupd c 0 (z a (i + lda * i) - rsum 0 i (fun k => z c (k + lda * i) * z c (k + lda * i))) /\
     z a (i + lda * i) - rsum 0 i (fun k => z c (k + lda * i) * z c (k + lda * i)) <= 0).
Proof.
  unfold dpotrf. rcar. apply wp_bind.
  apply wp_forb_up with (I := fun i b => chol_inv i i b)
    (J := fun r => let '(info, b) := r in exists i c, (info = i + 1)%Z /\ (0 <= i < n)%Z /\ chol_inv i i c /\
     b = zupd c 0 (z a (i + lda * i) - rsum 0 i (fun k => z c (k + lda * i) * z c (k + lda * i))) /\
     z a (i + lda * i) - rsum 0 i (fun k => z c (k + lda * i) * z c (k + lda * i)) <= 0).
  - lia.
  - split; [auto|split; [|split]]; intros; try lia. reflexivity.
  - intros i b Hi I. assert (I0 := I). destruct I as (L & A & B & C).
    assert (IN : forall p q, (0 <= p < n)%Z -> (0 <= q < n)%Z -> (0 <= p + lda * q < zlen b)%Z)
      by (intros; rewrite L; apply (cm_in lda n); lia).
    assert (IN0 : forall p q, (0 <= p < n)%Z -> (0 <= q < n)%Z -> (0 <= p + lda * q)%Z) by (intros; now apply IN).
    rewrite (rd_ok 0) by (apply IN; lia). cbn [bind].
    rewrite (diff_loop_dn _ _ _ (fun k => z b (k + lda * i) * z b (k + lda * i))); [|lia|].
    2:{ intros k s Hk. rewrite (rd_ok 0) by (apply IN; lia). reflexivity. }
    cbn [bind]. replace (-1 + 1)%Z with 0%Z by lia. replace (i - 1 + 1)%Z with i by lia.
    rewrite (C i i) by lia.
    set (piv := z a (i + lda * i) - rsum 0 i (fun k => z b (k + lda * i) * z b (k + lda * i))).
    rnum. destruct (Rltb_spec 0 piv) as [P|P].
    + rewrite wr_ok by (apply IN; lia). cbn [bind].
      assert (Sq : sqrt piv * sqrt piv = piv) by (apply sqrt_sqrt; lra).
      assert (Sp : 0 < sqrt piv) by now apply sqrt_lt_R0.
      assert (I1 : chol_inv i (i + 1) (zupd b (i + lda * i) (sqrt piv))).
      { apply chol_inv_write; auto; try lia. unfold chol_row. rewrite rsum_last by lia.
        rewrite zn_zupd_eq by (apply IN; lia). rewrite Sq.
        rewrite (rsum_ext 0 i _ (fun k => z b (k + lda * i) * z b (k + lda * i))).
        - unfold piv. ring.
        - intros k Hk. rewrite !zn_zupd_ne; auto; try (apply IN0; lia); lia. }
      apply wp_bind.
      apply wp_for_up with (I := fun j b => chol_inv i j b); [lia|exact I1| |].
      * clear b L A B C IN IN0 I0 piv P Sq Sp I1. intros j b Hj I. assert (I0 := I). destruct I as (L & A & B & C).
        assert (IN : forall p q, (0 <= p < n)%Z -> (0 <= q < n)%Z -> (0 <= p + lda * q < zlen b)%Z)
          by (intros; rewrite L; apply (cm_in lda n); lia).
    assert (IN0 : forall p q, (0 <= p < n)%Z -> (0 <= q < n)%Z -> (0 <= p + lda * q)%Z) by (intros; now apply IN).
        replace (j * lda + i)%Z with (i + lda * j)%Z by lia.
        rewrite (rd_ok 0) by (apply IN; lia). cbn [bind].
        rewrite (diff_loop_dn _ _ _ (fun k => z b (k + lda * i) * z b (k + lda * j))); [|lia|].
        2:{ intros k s Hk. rewrite (rd_ok 0) by (apply IN; lia). cbn [bind].
            rewrite (rd_ok 0) by (apply IN; lia). reflexivity. }
        cbn [bind]. replace (-1 + 1)%Z with 0%Z by lia. replace (i - 1 + 1)%Z with i by lia.
        rewrite (rd_ok 0) by (apply IN; lia). cbn [bind].
        rewrite wr_ok by (apply IN; lia). cbn [wp].
        apply chol_inv_write; auto; try lia. unfold chol_row. rewrite rsum_last by lia.
        rewrite zn_zupd_eq by (apply IN; lia).
        assert (Ni : (i + lda * i <> i + lda * j)%Z) by nia.
        rewrite zn_zupd_ne; auto; try (apply IN0; lia).
        rewrite (rsum_ext 0 i _ (fun k => z b (k + lda * i) * z b (k + lda * j))).
        -- rewrite (C i j) by lia. assert (0 < z b (i + lda * i)) by (apply B; lia). field. lra.
        -- intros k Hk. rewrite !zn_zupd_ne; auto; try (apply IN0; lia); try lia.
           intros E. apply cm_inj in E; lia.
      * intros b' I'. cbn [wp]. now apply chol_inv_next.
    + assert (H0 : (0 <= 0 + lda * 0 < zlen b)%Z) by (apply IN; lia).
      rewrite wr_ok by lia. cbn [wp bind]. exists i, b. split; [auto|]. split; [lia|]. split; [auto|]. split; [reflexivity|].
      unfold piv in P. lra.
  - intros b I. cbn [wp]. left. auto.
  - intros [info b] J. cbn [wp]. right. exact J.
Qed.
End Chol.

(** For every symmetric matrix (given by its upper triangle): info = 0 exactly
    when it is positive definite, and then the upper triangle is replaced by a
    factor R with R'R = M and positive diagonal; otherwise info is one more than
    the size of the largest leading block that is positive definite.  Nothing
    else in the array changes, except that a failed call stores the pivot in
    the first place. *)
Theorem C27_dpotrf n lda (a : list R) : (0 <= n <= lda)%Z -> (n + lda * (n - 1) <= zlen a)%Z ->
  exists info b, dpotrf (N := N) n a lda = Ok (info, b) /\ zlen b = zlen a /\
  (info = 0%Z <-> posdef n (symm a lda)) /\
  (info = 0%Z -> gram n (triu b lda) (symm a lda) /\ (forall i, (0 <= i < n)%Z -> 0 < triu b lda i i) /\
     forall p q, (0 <= p < lda)%Z -> (0 <= q)%Z -> ~ (p <= q < n)%Z -> z b (p + lda * q) = z a (p + lda * q)) /\
  (info <> 0%Z -> (1 <= info <= n)%Z /\ posdef (info - 1) (symm a lda) /\ ~ posdef info (symm a lda) /\ z b 0 <= 0).
Proof.
  intros Hn Ha. assert (W := chol_loop n lda a Hn Ha).
  apply wp_inv in W as ((info & b) & E & [(-> & I)|(i & c & -> & Hi & I & -> & P)]).
  - exists 0%Z, b. assert (G := chol_inv_gram_n n lda a b I).
    destruct I as (L & A & B & C).
    assert (D : forall i, (0 <= i < n)%Z -> 0 < triu b lda i i)
      by (intros i Hi; unfold triu; rewrite Z.leb_refl; apply B; lia).
    split; [auto|]. split; [auto|]. split; [|split].
    + split; auto. intros _. apply (gram_posdef n (triu b lda)); auto using triu_upper.
      intros i Hi. assert (X := D i Hi). lra.
    + intros _. split; [auto|]. split; [auto|]. intros p q Hp Hq H. apply C; auto. lia.
    + intros []; reflexivity.
  - exists (i + 1)%Z. eexists. split; [exact E|].
    destruct (chol_inv_pivot n lda a i c Hi I P) as [P1 P2]. destruct I as (L & A & B & C).
    split; [now rewrite zlen_zupd|]. split; [|split].
    + split; [lia|]. intros PD. destruct P2.
      intros x (k & Hk & Hx).
      assert (Q := PD (fun j => if (j <=? i)%Z then x j else 0)).
      assert (E1 : quad n (symm a lda) (fun j => if (j <=? i)%Z then x j else 0) = quad (i + 1) (symm a lda) x).
      { unfold quad. rewrite (rsum_split 0 (i + 1) n) by lia. rewrite (rsum_0 (i + 1)).
        - rewrite Rplus_0_r. apply rsum_ext. intros p Hp. destruct (Z.leb_spec p i); [|lia].
          rewrite (rsum_split 0 (i + 1) n) by lia. rewrite (rsum_0 (i + 1)).
          + rewrite Rplus_0_r. apply rsum_ext. intros q Hq. destruct (Z.leb_spec q i); [reflexivity|lia].
          + intros q Hq. destruct (Z.leb_spec q i); [lia|ring].
        - intros p Hp. destruct (Z.leb_spec p i); [lia|]. apply rsum_0. intros; ring. }
      rewrite E1 in Q. apply Q. exists k. split; [lia|]. destruct (Z.leb_spec k i); [auto|lia].
    + lia.
    + intros _. split; [lia|]. replace (i + 1 - 1)%Z with i by lia. split; [auto|]. split; [auto|].
      rewrite zn_zupd_eq; [exact P|].
      assert (0 <= 0 + lda * 0 < zlen a)%Z by (apply (cm_in lda n); lia). lia.
Qed.

(** *** C28: plane rotations *)

Lemma givens_t (x y : R) : y <> 0 ->
  let mu := if Rltb (Rabs x) (Rabs y) then Rabs y else Rabs x in
  let t := mu * sqrt ((x / mu) * (x / mu) + (y / mu) * (y / mu)) in
  t * t = x * x + y * y /\ 0 < t.
Proof.
  intros Hy mu t.
  assert (Py : 0 < Rabs y) by now apply Rabs_pos_lt.
  assert (Pm : 0 < mu) by (unfold mu; destruct (Rltb_spec (Rabs x) (Rabs y)); lra).
  set (w := (x / mu) * (x / mu) + (y / mu) * (y / mu)).
  assert (Ew : mu * mu * w = x * x + y * y) by (unfold w; field; lra).
  assert (Pw : 0 < w).
  { apply (Rmult_lt_reg_l (mu * mu)); [nra|]. rewrite Ew. assert (0 < y * y) by (now apply Rsqr_pos_lt). nra. }
  assert (S : sqrt w * sqrt w = w) by (apply sqrt_sqrt; lra).
  assert (Sp : 0 < sqrt w) by now apply sqrt_lt_R0.
  unfold t. fold w. split; [|nra]. rewrite <- Ew, <- S at 1. rewrite S. transitivity (mu * mu * (sqrt w * sqrt w)); [ring|now rewrite S].
Qed.

(** The coefficients describe a rotation; it maps the given pair to the returned
    one; the returned second component is zero unless the given one is
    negligible (at most ZERO), in which case nothing is rotated; the first
    component keeps its sign. *)
Theorem C28_computeGivens (x y xn yn c s : R) : 0 <= zero -> computeGivens (N := N) x y = (xn, yn, c, s) ->
  c * c + s * s = 1 /\ applyGivens (N := N) c s x y = (xn, yn) /\ 0 <= xn * x /\ xn * xn + yn * yn = x * x + y * y /\
  (zero < Rabs y -> yn = 0) /\ (Rabs y <= zero -> c = 1 /\ s = 0 /\ yn = y).
Proof.
  intros Hz. unfold computeGivens. rnum. destruct (Rleb_spec (Rabs y) zero) as [L|L]; intros E; inversion E; subst; clear E.
  - split; [ring|]. split; [unfold applyGivens; rnum; f_equal; ring|]. split; [nra|]. split; [ring|]. split; [lra|auto].
  - assert (Hy : y <> 0) by (intros ->; rewrite Rabs_R0 in L; lra).
    destruct (givens_t x y Hy) as [E P]. cbv zeta in E, P.
    set (t := (if Rltb (Rabs x) (Rabs y) then Rabs y else Rabs x) * _) in *.
    set (u := if Rltb x 0 then - t else t).
    assert (U : u * u = x * x + y * y /\ u <> 0 /\ 0 <= u * x).
    { unfold u. destruct (Rltb_spec x 0); repeat split; try nra. }
    destruct U as (U1 & U2 & U3).
    split; [|split; [|split; [|split; [|split]]]].
    + transitivity ((x * x + y * y) / (u * u)); [field; auto|]. rewrite <- U1. field. auto.
    + unfold applyGivens. rnum. f_equal.
      * transitivity ((x * x + y * y) / u); [field; auto|]. rewrite <- U1. field. auto.
      * field. auto.
    + exact U3.
    + rewrite U1. ring.
    + auto.
    + lra.
Qed.

(** Applying a rotation keeps the Euclidean norm of every pair and is undone by
    the rotation with the opposite sine. *)
Theorem C28_applyGivens (c s x y : R) : c * c + s * s = 1 ->
  let '(x', y') := applyGivens (N := N) c s x y in
  x' * x' + y' * y' = x * x + y * y /\ applyGivens (N := N) c (- s) x' y' = (x, y).
Proof.
  intros E. unfold applyGivens. rnum. split.
  - transitivity ((c * c + s * s) * (x * x + y * y)); [ring|]. rewrite E. ring.
  - f_equal.
    + transitivity ((c * c + s * s) * x); [ring|]. rewrite E. ring.
    + transitivity ((c * c + s * s) * y); [ring|]. rewrite E. ring.
Qed.

(** A negligible second component is not annihilated. *)
Theorem C28_annihilate_refuted (x : R) : 0 < zero -> exists y, y <> 0 /\
  computeGivens (N := N) x y = (x, y, 1, 0).
Proof.
  intros Hz. exists zero. split; [lra|]. unfold computeGivens. rnum.
  rewrite Rabs_right by lra. rewrite Rleb_true by lra. reflexivity.
Qed.

(** *** C29: triangular solves with the Cholesky factor *)

Definition rhs (b : option (list R)) (a : list R) (i : Z) : R := match b with Some b => z b i | None => z a i end.
Definition rhs_ok (b : option (list R)) (n : Z) : Prop := match b with Some b => (n <= zlen b)%Z | None => True end.
Definition utrans (t : bool) (U : Z -> Z -> R) (i j : Z) : R := if t then U j i else U i j.

Lemma rdb_ok b (a a' : list R) n i : rhs_ok b n -> (0 <= i < n)%Z -> (n <= zlen a)%Z -> zlen a' = zlen a -> z a' i = z a i ->
  rdb (N := N) b a' i = Ok (rhs b a i).
Proof.
  intros Hb Hi Ha L E. destruct b as [b|]; cbn [rdb rhs rhs_ok] in *.
  - now rewrite (rd_ok 0) by lia.
  - rewrite (rd_ok 0) by lia. now rewrite E.
Qed.

Lemma div_or_zero (d sum : R) : 0 < zero -> zero * Rabs sum <= Rabs d -> d * (sum / d) = sum.
Proof.
  intros Hz H. destruct (Req_dec d 0) as [->|Hd]; [|field; auto].
  rewrite Rabs_R0 in H. destruct (Req_dec sum 0) as [->|Hs]; [unfold Rdiv; ring|].
  apply Rabs_pos_lt in Hs. nra.
Qed.

Lemma div_ok (d sum : R) : 0 < zero \/ d <> 0 -> zero * Rabs sum <= Rabs d -> d * (sum / d) = sum.
Proof. intros [H|H] L; [now apply div_or_zero|field; auto]. Qed.

Lemma backsolveR_gen nV nR (Rm : list R) b t (a : list R) : 0 < zero \/ (forall i, (0 <= i < nR)%Z -> z Rm (i + nV * i) <> 0) ->
  (0 <= nR <= nV)%Z -> (nR + nV * (nR - 1) <= zlen Rm)%Z -> (nR <= zlen a)%Z -> rhs_ok b nR ->
  exists ret a', backsolveR (N := N) nV nR Rm b t a = Ok (ret, a') /\ zlen a' = zlen a /\
  (forall i, (nR <= i)%Z -> z a' i = z a i) /\
  ((ret = SUCCESSFUL_RETURN /\ forall i, (0 <= i < nR)%Z -> matvec nR (utrans t (triu Rm nV)) (z a') i = rhs b a i) \/
   (ret = RET_DIV_BY_ZERO /\ exists i, (0 <= i < nR)%Z /\
      let others := if t then rsum 0 i (fun j => z Rm (j + nV * i) * z a' j) else rsum (i + 1) nR (fun j => z Rm (i + nV * j) * z a' j) in
      Rabs (z Rm (i + nV * i)) < zero * Rabs (rhs b a i - others))).
Proof.
  intros Hz Hn HR Ha Hb. unfold backsolveR. rcar.
  destruct (Z.leb_spec nR 0) as [L0|L0].
  { exists SUCCESSFUL_RETURN, a. split; [auto|]. split; [auto|]. split; [auto|]. left. split; auto. intros; lia. }
  assert (IN : forall p q, (0 <= p < nR)%Z -> (0 <= q < nR)%Z -> (0 <= p + nV * q < zlen Rm)%Z)
    by (intros; apply (cm_in nV nR); lia).
  cut (wp (c <- (if t then
    forb_up 0 nR (fun i a =>
      sum <- rdb (N := N) b a i ;;
      sum <- for_up 0 i (fun j sum => r <- rd Rm (j + nV * i) ;; x <- rd a j ;; Ok (sum - r * x)) sum ;;
      d <- rd Rm (i + nV * i) ;;
      if Rleb (zero * Rabs sum) (Rabs d) then a <- wr a i (sum / d) ;; Ok (Next a)
      else Ok (Brk (RET_DIV_BY_ZERO, a))) a
  else
    forb_dn (nR - 1) (-1) (fun i a =>
      sum <- rdb (N := N) b a i ;;
      sum <- for_up (i + 1) nR (fun j sum => r <- rd Rm (i + nV * j) ;; x <- rd a j ;; Ok (sum - r * x)) sum ;;
      d <- rd Rm (i + nV * i) ;;
      if Rleb (zero * Rabs sum) (Rabs d) then a <- wr a i (sum / d) ;; Ok (Next a)
      else Ok (Brk (RET_DIV_BY_ZERO, a))) a) ;;
  match c with Next a => Ok (SUCCESSFUL_RETURN, a) | Brk r => Ok r end)
   (fun r => let '(ret, a') := r in zlen a' = zlen a /\
  (forall i, (nR <= i)%Z -> z a' i = z a i) /\
  ((ret = SUCCESSFUL_RETURN /\ forall i, (0 <= i < nR)%Z -> matvec nR (utrans t (triu Rm nV)) (z a') i = rhs b a i) \/
   (ret = RET_DIV_BY_ZERO /\ exists i, (0 <= i < nR)%Z /\
      let others := if t then rsum 0 i (fun j => z Rm (j + nV * i) * z a' j) else rsum (i + 1) nR (fun j => z Rm (i + nV * j) * z a' j) in
      Rabs (z Rm (i + nV * i)) < zero * Rabs (rhs b a i - others))))).
  { intros W. apply wp_inv in W as ((ret & a') & E & P). exists ret, a'. split; [exact E|exact P]. }
  rcar. apply wp_bind. destruct t.
  - set (I := fun i (a' : list R) => zlen a' = zlen a /\ (forall k, (i <= k)%Z -> z a' k = z a k) /\
      (forall k, (0 <= k < i)%Z -> rsum 0 k (fun j => z Rm (j + nV * k) * z a' j) + z Rm (k + nV * k) * z a' k = rhs b a k)).
    apply wp_forb_up with (I := I) (J := fun r => let '(ret, a') := r in ret = RET_DIV_BY_ZERO /\ zlen a' = zlen a /\ (forall i, (nR <= i)%Z -> z a' i = z a i) /\
      exists i, (0 <= i < nR)%Z /\ Rabs (z Rm (i + nV * i)) < zero * Rabs (rhs b a i - rsum 0 i (fun j => z Rm (j + nV * i) * z a' j))).
    + lia.
    + split; [auto|]. split; [auto|]. intros; lia.
    + intros i a' Hi (L & U & S). rewrite (rdb_ok b a a' nR) by (auto; try (apply U); lia). cbn [bind].
      rewrite (diff_loop _ _ _ (fun j => z Rm (j + nV * i) * z a' j)); [|lia|].
      2:{ intros j s Hj. rewrite (rd_ok 0) by (apply IN; lia). cbn [bind]. now rewrite (rd_ok 0) by lia. }
      cbn [bind]. rewrite (rd_ok 0) by (apply IN; lia). cbn [bind].
      set (sum := rhs b a i - _). destruct (Rleb_spec (zero * Rabs sum) (Rabs (z Rm (i + nV * i)))) as [T|T].
      * rewrite wr_ok by lia. cbn [wp bind]. split; [now rewrite zlen_zupd|]. split.
        -- intros k Hk. rewrite zn_zupd_ne by lia. apply U; lia.
        -- intros k Hk.
           rewrite (rsum_ext 0 k _ (fun j => z Rm (j + nV * k) * z a' j))
             by (intros j Hj; rewrite zn_zupd_ne by lia; reflexivity).
           destruct (Z.eq_dec k i) as [->|].
           ++ rewrite zn_zupd_eq by lia. rewrite div_ok by (first [assumption | destruct Hz as [Hz|Hz]; [left; exact Hz|right; apply Hz; lia]]). unfold sum. ring.
           ++ rewrite zn_zupd_ne by lia. apply S. lia.
      * cbn [wp]. split; [auto|]. split; [auto|]. split; [intros; apply U; lia|]. exists i. split; [lia|].
        fold sum. lra.
    + intros a' (L & U & S). cbn [wp]. split; [auto|]. split; [auto|]. left. split; auto.
      intros i Hi. rewrite <- (S i Hi). unfold matvec. rewrite (rsum_split 0 (i + 1) nR) by lia.
      rewrite (rsum_0 (i + 1)).
      * rewrite rsum_last by lia. unfold utrans, triu. rewrite Z.leb_refl. rewrite Rplus_0_r. f_equal.
        apply rsum_ext. intros j Hj. destruct (Z.leb_spec j i); [reflexivity|lia].
      * intros j Hj. unfold utrans, triu. destruct (Z.leb_spec j i); [lia|ring].
    + intros [ret a'] (-> & L & U & i & Hi & T). cbn [wp]. split; [auto|]. split; [auto|]. right. split; auto. exists i. auto.
  - set (I := fun i (a' : list R) => zlen a' = zlen a /\ (forall k, (0 <= k <= i)%Z -> z a' k = z a k) /\ (forall k, (nR <= k)%Z -> z a' k = z a k) /\
      (forall k, (i < k < nR)%Z -> z Rm (k + nV * k) * z a' k + rsum (k + 1) nR (fun j => z Rm (k + nV * j) * z a' j) = rhs b a k)).
    apply wp_forb_dn with (I := I) (J := fun r => let '(ret, a') := r in ret = RET_DIV_BY_ZERO /\ zlen a' = zlen a /\ (forall i, (nR <= i)%Z -> z a' i = z a i) /\
      exists i, (0 <= i < nR)%Z /\ Rabs (z Rm (i + nV * i)) < zero * Rabs (rhs b a i - rsum (i + 1) nR (fun j => z Rm (i + nV * j) * z a' j))).
    + lia.
    + split; [auto|]. split; [auto|]. split; [auto|]. intros; lia.
    + intros i a' Hi (L & U & V & S). rewrite (rdb_ok b a a' nR) by (auto; try (apply U); lia). cbn [bind].
      rewrite (diff_loop _ _ _ (fun j => z Rm (i + nV * j) * z a' j)); [|lia|].
      2:{ intros j s Hj. rewrite (rd_ok 0) by (apply IN; lia). cbn [bind]. now rewrite (rd_ok 0) by lia. }
      cbn [bind]. rewrite (rd_ok 0) by (apply IN; lia). cbn [bind].
      set (sum := rhs b a i - _). destruct (Rleb_spec (zero * Rabs sum) (Rabs (z Rm (i + nV * i)))) as [T|T].
      * rewrite wr_ok by lia. cbn [wp bind]. split; [now rewrite zlen_zupd|]. split; [|split].
        -- intros k Hk. rewrite zn_zupd_ne by lia. apply U; lia.
        -- intros k Hk. rewrite zn_zupd_ne by lia. apply V; lia.
        -- intros k Hk.
           rewrite (rsum_ext (k + 1) nR _ (fun j => z Rm (k + nV * j) * z a' j))
             by (intros j Hj; rewrite zn_zupd_ne by lia; reflexivity).
           destruct (Z.eq_dec k i) as [->|].
           ++ rewrite zn_zupd_eq by lia. rewrite div_ok by (first [assumption | destruct Hz as [Hz|Hz]; [left; exact Hz|right; apply Hz; lia]]). unfold sum. ring.
           ++ rewrite zn_zupd_ne by lia. apply S. lia.
      * cbn [wp]. split; [auto|]. split; [auto|]. split; [intros; apply V; lia|]. exists i. split; [lia|].
        fold sum. lra.
    + intros a' (L & U & V & S). cbn [wp]. split; [auto|]. split; [auto|]. left. split; auto.
      intros i Hi. rewrite <- (S i) by lia. unfold matvec. rewrite (rsum_split 0 i nR) by lia.
      rewrite (rsum_0 0 i).
      * rewrite rsum_first by lia. unfold utrans, triu. rewrite Z.leb_refl. rewrite Rplus_0_l. f_equal.
        apply rsum_ext. intros j Hj. destruct (Z.leb_spec i j); [reflexivity|lia].
      * intros j Hj. unfold utrans, triu. destruct (Z.leb_spec i j); [lia|ring].
    + intros [ret a'] (-> & L & U & i & Hi & T). cbn [wp]. split; [auto|]. split; [auto|]. right. split; auto. exists i. auto.
Qed.

(** For every upper triangular factor (given by the upper triangle of R) and
    every right-hand side, which may be the result vector itself: the call
    returns SUCCESSFUL_RETURN with Ra = b (R'a = b), or RET_DIV_BY_ZERO when some
    diagonal entry is smaller than ZERO times the partial right-hand side. *)
Theorem C29_backsolveR nV nR (Rm : list R) b t (a : list R) : 0 < zero ->
  (0 <= nR <= nV)%Z -> (nR + nV * (nR - 1) <= zlen Rm)%Z -> (nR <= zlen a)%Z -> rhs_ok b nR ->
  exists ret a', backsolveR (N := N) nV nR Rm b t a = Ok (ret, a') /\ zlen a' = zlen a /\
  (forall i, (nR <= i)%Z -> z a' i = z a i) /\
  ((ret = SUCCESSFUL_RETURN /\ forall i, (0 <= i < nR)%Z -> matvec nR (utrans t (triu Rm nV)) (z a') i = rhs b a i) \/
   (ret = RET_DIV_BY_ZERO /\ exists i, (0 <= i < nR)%Z /\
      let others := if t then rsum 0 i (fun j => z Rm (j + nV * i) * z a' j) else rsum (i + 1) nR (fun j => z Rm (i + nV * j) * z a' j) in
      Rabs (z Rm (i + nV * i)) < zero * Rabs (rhs b a i - others))).
Proof. intros H. apply backsolveR_gen. now left. Qed.

(** *** C30: triangular solves with the constraint factor *)

(** The nT by nT reverse triangular matrix stored row-wise in the last nT
    columns of T. *)
Definition revtri (T : list R) (sizeT nT i j : Z) : R :=
  if (nT - 1 <=? i + j)%Z then z T (i * sizeT + (sizeT - nT + j)) else 0.

Theorem C30_backsolveT sizeT nT (T b : list R) t (a : list R) : 0 <= eps ->
  (0 <= nT <= sizeT)%Z -> (nT * sizeT <= zlen T)%Z -> (nT <= zlen a)%Z -> (nT <= zlen b)%Z ->
  exists ret a', backsolveT (N := N) sizeT nT T b t a = Ok (ret, a') /\ zlen a' = zlen a /\
  (forall i, (nT <= i)%Z -> z a' i = z a i) /\
  ((ret = SUCCESSFUL_RETURN /\ (forall i, (0 <= i < nT)%Z -> eps < Rabs (revtri T sizeT nT i (nT - 1 - i))) /\
    forall i, (0 <= i < nT)%Z -> matvec nT (utrans t (revtri T sizeT nT)) (z a') i = z b i) \/
   (ret = RET_DIV_BY_ZERO /\ exists i, (0 <= i < nT)%Z /\ Rabs (revtri T sizeT nT i (nT - 1 - i)) <= eps)).
Proof.
  intros Hz Hn HT Ha Hb. unfold backsolveT. rcar.
  destruct (Z.leb_spec nT 0) as [L0|L0].
  { exists SUCCESSFUL_RETURN, a. split; [auto|]. split; [auto|]. split; [auto|]. left. split; [auto|]. split; intros; lia. }
  assert (IN : forall p q, (0 <= p < nT)%Z -> (0 <= q < sizeT)%Z -> (0 <= p * sizeT + q < zlen T)%Z).
  { intros. assert (p * sizeT <= (nT - 1) * sizeT)%Z by (apply Z.mul_le_mono_nonneg_r; lia). nia. }
  set (M := utrans t (revtri T sizeT nT)).
  set (C := fun i k => ((if t then nT - 1 - k else i) * sizeT + (if t then sizeT - nT + i else sizeT - 1 - k))%Z).
  assert (CM : forall i k, (0 <= k <= i)%Z -> (i < nT)%Z -> z T (C i k) = M i (nT - 1 - k)%Z).
  { intros i k Hk Hi. unfold C, M, utrans, revtri. destruct t.
    - destruct (Z.leb_spec (nT - 1) (nT - 1 - k + i)); [reflexivity|lia].
    - destruct (Z.leb_spec (nT - 1) (i + (nT - 1 - k))); [f_equal; lia|lia]. }
  assert (IC : forall i k, (0 <= k <= i)%Z -> (i < nT)%Z -> (0 <= C i k < zlen T)%Z).
  { intros. unfold C. apply IN; destruct t; lia. }
  set (I := fun i (a' : list R) => zlen a' = zlen a /\ (forall k, (0 <= k < nT - i \/ nT <= k)%Z -> z a' k = z a k) /\
      (forall k, (0 <= k < i)%Z -> eps < Rabs (M k (nT - 1 - k)%Z)) /\
      (forall k, (0 <= k < i)%Z -> rsum 0 k (fun j => M k (nT - 1 - j)%Z * z a' (nT - 1 - j)%Z) + M k (nT - 1 - k)%Z * z a' (nT - 1 - k)%Z = z b k)).
  set (J := fun r : returnValue * list R => let '(ret, a') := r in ret = RET_DIV_BY_ZERO /\ zlen a' = zlen a /\ (forall i, (nT <= i)%Z -> z a' i = z a i) /\
      exists i, (0 <= i < nT)%Z /\ Rabs (M i (nT - 1 - i)%Z) <= eps).
  assert (MD : forall i, (0 <= i < nT)%Z -> exists i', (0 <= i' < nT)%Z /\ M i (nT - 1 - i)%Z = revtri T sizeT nT i' (nT - 1 - i')%Z).
  { intros i Hi. unfold M, utrans. destruct t; [|now exists i].
    exists (nT - 1 - i)%Z. split; [lia|]. f_equal; lia. }
  assert (MD' : forall i, (0 <= i < nT)%Z -> exists i', (0 <= i' < nT)%Z /\ revtri T sizeT nT i (nT - 1 - i)%Z = M i' (nT - 1 - i')%Z).
  { intros i Hi. unfold M, utrans. destruct t; [|now exists i].
    exists (nT - 1 - i)%Z. split; [lia|]. f_equal; lia. }
  match goal with |- exists ret a', ?m = _ /\ _ => cut (wp m (fun r => let '(ret, a') := r in zlen a' = zlen a /\
    (forall i, (nT <= i)%Z -> z a' i = z a i) /\ ((ret = SUCCESSFUL_RETURN /\ I nT a') \/ J (ret, a')))) end.
  { intros W. apply wp_inv in W as ((ret & a') & E & L & U & P). exists ret, a'. split; [exact E|].
    split; [auto|]. split; [auto|].
    destruct P as [(-> & _ & _ & D & S)|(-> & _ & _ & i & Hi & D)].
    - left. split; [auto|]. split.
      + intros i Hi. destruct (MD' i Hi) as (i' & Hi' & ->). auto.
      + intros i Hi. rewrite <- (S i Hi). unfold matvec.
        rewrite (rsum_split 0 (nT - 1 - i) nT) by lia. rewrite (rsum_0 0 (nT - 1 - i)).
        * rewrite rsum_first by lia. rewrite Rplus_0_l. rewrite Rplus_comm. f_equal.
          (* reversal *)
          clear - Hi. revert Hi. cut (forall f m, (0 <= m)%Z -> rsum (nT - m) nT f = rsum 0 m (fun j => f (nT - 1 - j)%Z)).
          { intros H Hi. rewrite <- (H (fun j => M i j * z a' j)) by lia. f_equal. lia. }
          intros f m Hm. pattern m. apply natlike_ind; [|clear m Hm; intros m Hm IH|assumption].
          -- rewrite !rsum_empty by lia. reflexivity.
          -- unfold Z.succ. rewrite rsum_last by lia. rewrite <- IH. rewrite rsum_first by lia.
             replace (nT - (m + 1) + 1)%Z with (nT - m)%Z by lia.
             replace (nT - (m + 1))%Z with (nT - 1 - m)%Z by lia. ring.
        * intros j Hj. unfold M, utrans, revtri. destruct t.
          -- destruct (Z.leb_spec (nT - 1) (j + i)); [lia|ring].
          -- destruct (Z.leb_spec (nT - 1) (i + j)); [lia|ring].
    - right. split; [auto|]. destruct (MD i Hi) as (i' & Hi' & E'). exists i'. rewrite <- E'. auto. }
  rcar. apply wp_bind. apply wp_forb_up with (I := I) (J := J).
  - lia.
  - split; [auto|]. split; [auto|]. split; intros; lia.
  - intros i a' Hi (L & U & D & S). rewrite (rd_ok 0 b) by lia. cbn [bind].
    rewrite (diff_loop _ _ _ (fun j => M i (nT - 1 - j)%Z * z a' (nT - 1 - j)%Z)); [|lia|].
    2:{ intros j s Hj. fold (C i j). rewrite (rd_ok 0) by (apply IC; lia). cbn [bind].
        rewrite (rd_ok 0) by lia. cbn [bind]. rewrite CM by lia. reflexivity. }
    cbn [bind]. fold (C i i). rewrite (rd_ok 0) by (apply IC; lia). cbn [bind]. rewrite CM by lia.
    rnum. destruct (Rltb_spec eps (Rabs (M i (nT - 1 - i)%Z))) as [P|P].
    + rewrite wr_ok by lia. cbn [wp bind]. split; [now rewrite zlen_zupd|]. split; [|split].
      * intros k Hk. rewrite zn_zupd_ne by lia. apply U; lia.
      * intros k Hk. destruct (Z.eq_dec k i) as [->|]; [auto|apply D; lia].
      * intros k Hk.
        rewrite (rsum_ext 0 k _ (fun j => M k (nT - 1 - j)%Z * z a' (nT - 1 - j)%Z))
             by (intros j Hj; rewrite zn_zupd_ne by lia; reflexivity).
        destruct (Z.eq_dec k i) as [->|].
        -- rewrite zn_zupd_eq by lia. field. intros E. rewrite E, Rabs_R0 in P. lra.
        -- rewrite zn_zupd_ne by lia. apply S. lia.
    + cbn [wp]. split; [auto|]. split; [auto|]. split; [intros; apply U; lia|]. exists i. split; [lia|]. lra.
  - intros a' H. cbn [wp]. assert (H' := H). destruct H as (L & U & _). split; [auto|]. split; [|auto].
    intros i Hi. apply U. lia.
  - intros [ret a'] H. cbn [wp]. assert (H' := H). destruct H as (-> & L & U & _). auto.
Qed.
End Real.

(** The hypotheses of the theorems only fix the sizes of the arrays.  Concrete
    runs, computed over the rationals: a factorisation, a failed one, and
    triangular solves. *)
Example C27_example_ok : dpotrf (N := QNum) 2 [4; 7; 2; 2]%Q 2 = Ok (0%Z, [2; 7; 1; 1]%Q).
Proof. vm_compute. reflexivity. Qed.
Example C27_example_fail : dpotrf (N := QNum) 2 [1; 7; 2; 3]%Q 2 = Ok (2%Z, [-1; 7; 2; 3]%Q).
Proof. vm_compute. reflexivity. Qed.
Example C27_example_hyps : (0 <= 2 <= 2)%Z /\ (2 + 2 * (2 - 1) <= zlen [4; 7; 2; 2]%R)%Z.
Proof. unfold zlen; cbn; lia. Qed.
Example C28_example : computeGivens (N := RNumT 0 0 1) 0 2 = (2, 0, 0, 1)%R.
Proof.
  unfold computeGivens. rnum. rewrite Rabs_R0. rewrite (Rabs_right 2) by lra.
  rewrite (Rleb_false 2 0), (Rltb_true 0 2), (Rltb_false 0 0) by lra.
  replace (0 / 2 * (0 / 2) + 2 / 2 * (2 / 2))%R with 1%R by field. rewrite sqrt_1.
  repeat f_equal; field.
Qed.
Example C29_example : backsolveR (N := QNum) 2 2 [2; 9; 1; 4]%Q (Some [3; 4]%Q) false [0; 0; 5]%Q = Ok (SUCCESSFUL_RETURN, [1; 1; 5]%Q)
  /\ backsolveR (N := QNum) 2 2 [2; 9; 1; 4]%Q None true [2; 5; 5]%Q = Ok (SUCCESSFUL_RETURN, [1; 1; 5]%Q)
  /\ backsolveR (N := QNum) 2 2 [2; 9; 1; 0]%Q (Some [3; 4]%Q) false [0; 0; 5]%Q = Ok (RET_DIV_BY_ZERO, [0; 0; 5]%Q).
Proof. vm_compute. auto. Qed.
Example C30_example : backsolveT (N := QNum) 3 2 [9; 9; 2; 9; 1; 4]%Q [2; 5]%Q false [0; 0]%Q = Ok (SUCCESSFUL_RETURN, [1; 1]%Q)
  /\ backsolveT (N := QNum) 3 2 [9; 9; 2; 9; 1; 4]%Q [1; 6]%Q true [0; 0]%Q = Ok (SUCCESSFUL_RETURN, [1; 1]%Q).
Proof. vm_compute. auto. Qed.

(** In double precision the test lets a zero pivot with a zero right-hand side
    pass: the call reports success although the entry computed is 0/0. *)
Theorem C29_zero_pivot_refuted :
  exists r, backsolveR (N := FNum) 1 1 [n0] (Some [n0]) false [n1] = Ok (SUCCESSFUL_RETURN, [r])
  /\ neqb r r = false.
Proof. eexists. split; [vm_compute; reflexivity|vm_compute; reflexivity]. Qed.
