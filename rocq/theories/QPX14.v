(** Setting up the TQ factorisation for an empty working set, and factorising
    the projected Hessian from scratch. *)
From Verif Require Import Base Types Num Options Indexlist IndexlistProofs Loops RSum LinSpec SafeLib SubjectTo SubjectToProofs SubjectToProofs2
  Flipper PropFlipper Matrices MatLib MatSafe CsLib PropDense PropSparse PropSparse2 LinAlg PropLinAlg QProblemB QPBSafe QPBSafe2 QPBX1 QPBX2 QPBX3 QPBX4 QPBX8 QProblem QProblem2 QPX1 QPX2 QPX3 QPX4 QPX5 QPX6 QPX9 QPX11 QPX12.
Local Open Scope R_scope.

(** the columns of Q are the unit vectors of the free variables, in the order
    of their list *)
Definition unitq (n : Z) (l : list Z) (Q : list R) : Prop :=
  forall v q, In v l -> (0 <= q < zlen l)%Z -> ce n Q v q = delta v (zn 0%Z l q).

Lemma unitq_orth n l Q : NoDup l -> unitq n l Q -> orth l (zlen l) (ce n Q).
Proof.
  intros ND U. split.
  - intros p q Hp Hq. rewrite (lsum_delta l (zn 0%Z l p)); auto using zn_In.
    + rewrite !U by auto using zn_In. unfold delta. rewrite Z.eqb_refl. destruct (Z.eqb_spec p q) as [->|Ne]; [rewrite Z.eqb_refl; ring|].
      destruct (Z.eqb_spec (zn 0%Z l p) (zn 0%Z l q)) as [E|]; [|ring]. exfalso. apply Ne. now apply (NoDup_zz l).
    + intros v Hv Ne. rewrite !U by auto. unfold delta. destruct (Z.eqb_spec v (zn 0%Z l p)) as [->|]; [congruence|ring].
  - intros u v Hu Hv. destruct (In_zn 0%Z l u Hu) as (p & Hp & E). rewrite (rsum_delta _ _ p); auto.
    + rewrite !U by auto. rewrite E. unfold delta. rewrite Z.eqb_refl, (Z.eqb_sym v u). ring.
    + intros q Hq Ne. rewrite U by auto. unfold delta. destruct (Z.eqb_spec u (zn 0%Z l q)) as [E'|]; [|ring].
      exfalso. apply Ne. apply (NoDup_zz l); auto; try lia; congruence.
Qed.

Lemma unitq_zhz n l Q Hm a b : NoDup l -> unitq n l Q -> (0 <= a < zlen l)%Z -> (0 <= b < zlen l)%Z ->
  zhz l Hm (ce n Q) a b = Hm (zn 0%Z l a) (zn 0%Z l b).
Proof.
  intros ND U Ha Hb. unfold zhz. rewrite (lsum_delta l (zn 0%Z l a)); auto using zn_In.
  - rewrite (lsum_delta l (zn 0%Z l b)); auto using zn_In.
    + rewrite !U by auto using zn_In. unfold delta. rewrite !Z.eqb_refl. ring.
    + intros v Hv Ne. rewrite (U v b) by auto. unfold delta. destruct (Z.eqb_spec v (zn 0%Z l b)); [congruence|ring].
  - intros u Hu Ne. apply lsum_0. intros v Hv. rewrite (U u a) by auto. unfold delta. destruct (Z.eqb_spec u (zn 0%Z l a)); [congruence|ring].
Qed.

(** orthonormal columns: a multiple of the identity stays one *)
Lemma scalar_zhz l Hm F m c a b : NoDup l -> orth l m F -> (forall i j, Hm i j = c * delta i j) -> (0 <= a < m)%Z -> (0 <= b < m)%Z ->
  zhz l Hm F a b = c * delta a b.
Proof.
  intros ND (O & _) E Ha Hb. rewrite <- O by auto. rewrite <- lsum_scal. unfold zhz. apply lsum_ext. intros u Hu.
  rewrite (lsum_delta l u); auto.
  - rewrite E, delta_refl. ring.
  - intros v Hv Ne. rewrite E. unfold delta. destruct (Z.eqb_spec u v); [congruence|ring].
Qed.

(** the projected matrix of a positive definite one *)
Lemma zhz_quad l Hm F m x : quad m (zhz l Hm F) x =
  lsum l (fun u => lsum l (fun v => rsum 0 m (fun p => F u p * x p) * Hm u v * rsum 0 m (fun p => F v p * x p))).
Proof.
  unfold quad, zhz, rsum. set (r := zseq 0 m). set (t := fun p q u v => (F u p * x p) * Hm u v * (F v q * x q)).
  transitivity (lsum r (fun p => lsum r (fun q => lsum l (fun u => lsum l (fun v => t p q u v))))).
  { apply lsum_ext. intros p _. apply lsum_ext. intros q _. rewrite <- lsum_scal, <- lsum_scal_r. apply lsum_ext. intros u _.
    rewrite <- lsum_scal, <- lsum_scal_r. apply lsum_ext. intros v _. unfold t. ring. }
  transitivity (lsum r (fun p => lsum l (fun u => lsum r (fun q => lsum l (fun v => t p q u v))))).
  { apply lsum_ext. intros p _. apply (lsum_swap r l (fun q u => lsum l (fun v => t p q u v))). }
  rewrite (lsum_swap r l (fun p u => lsum r (fun q => lsum l (fun v => t p q u v)))). apply lsum_ext. intros u _.
  transitivity (lsum r (fun p => lsum l (fun v => lsum r (fun q => t p q u v)))).
  { apply lsum_ext. intros p _. apply (lsum_swap r l (fun q v => t p q u v)). }
  rewrite (lsum_swap r l (fun p v => lsum r (fun q => t p q u v))). apply lsum_ext. intros v _.
  rewrite <- !lsum_scal_r. apply lsum_ext. intros p _. rewrite <- lsum_scal. reflexivity.
Qed.

Lemma quad_list n l Hm w : NoDup l -> (forall v, In v l -> (0 <= v < n)%Z) ->
  exists x, (forall v, In v l -> x v = w v) /\ quad n Hm x = lsum l (fun u => lsum l (fun v => w u * Hm u v * w v)).
Proof.
  intros ND RG. exists (spread l (fun p => w (zz l p))). split.
  - intros v Hv. destruct (In_zn 0%Z l v Hv) as (p & Hp & <-). now rewrite (spread_at l _ ND p Hp).
  - rewrite (spread_quad n l _ RG). unfold quad, sub. rewrite <- rsum_list. apply rsum_ext. intros i Hi. rewrite <- rsum_list. reflexivity.
Qed.

Lemma zhz_posdef n l Hm F m : posdef n Hm -> NoDup l -> (forall v, In v l -> (0 <= v < n)%Z) -> orth l (zlen l) F -> (m <= zlen l)%Z -> posdef m (zhz l Hm F).
Proof.
  intros PD ND RG (O & _) Hm' x (p & Hp & X). rewrite zhz_quad. set (w := fun u => rsum 0 m (fun q => F u q * x q)).
  destruct (quad_list n l Hm w ND RG) as (y & Y & E). change (0 < lsum l (fun u => lsum l (fun v => w u * Hm u v * w v))). rewrite <- E. apply PD.
  destruct (all_zero_dec (zlen l) (fun i => w (zz l i))) as [(i & Hi & Nu)|Z0].
  - exists (zz l i). split; [apply RG, zn_In, Hi|]. rewrite Y by (apply zn_In, Hi). exact Nu.
  - exfalso. apply X. assert (S : lsum l (fun u => F u p * w u) = x p).
    { transitivity (lsum l (fun u => rsum 0 m (fun q => F u p * F u q * x q))).
      { apply lsum_ext. intros u _. unfold w. rewrite <- rsum_scal. apply rsum_ext. intros q _. ring. }
      unfold rsum. rewrite lsum_swap. rewrite (lsum_delta _ p); [| apply NoDup_zseq|apply In_zseq; lia|].
      - rewrite lsum_scal_r, O by lia. rewrite delta_refl. ring.
      - intros q Hq Ne. apply In_zseq in Hq. rewrite lsum_scal_r, O by lia. unfold delta. destruct (Z.eqb_spec p q); [congruence|ring]. }
    rewrite <- S. apply lsum_0. intros u Hu. destruct (In_zn 0%Z l u Hu) as (i & Hi & <-). rewrite Z0 by auto. ring.
Qed.

Section X14.
Variables eps zero infty : R.
Hypothesis zero_0 : zero = 0.
Notation N := (RNumT eps zero infty).
Notation arr := (list R).

(** what the bilinear form of a stored matrix computes *)
Definition mat_bil (n : Z) (M : symmat N) (Hm : Z -> Z -> R) : Prop :=
  forall ic l xN (x y : arr), il_rep ic l -> (forall v, In v l -> (0 <= v < n)%Z) -> (0 <= xN <= n)%Z -> zlen x = (n * n)%Z -> zlen y = (n * n)%Z ->
  (forall q, (0 <= q < n * n)%Z -> zn 0 y q = 0) ->
  exists y', m_bilinear (N := N) M ic xN x n y n = Ok y' /\ zlen y' = (n * n)%Z /\
    (forall p q, (0 <= p < xN)%Z -> (0 <= q < xN)%Z -> ce n y' p q = zhz l Hm (ce n x) p q) /\
    (forall p q, (0 <= p < n)%Z -> (0 <= q < n)%Z -> (xN <= p)%Z \/ (xN <= q)%Z -> ce n y' p q = 0).

Lemma bil_zhz n Hm l (x : arr) a b : bil Hm l (vec x n a) (vec x n b) = zhz l Hm (ce n x) a b.
Proof.
  unfold bil, zhz. rewrite <- rsum_list. apply rsum_ext. intros i Hi. rewrite <- rsum_list, <- rsum_scal. apply rsum_ext. intros j Hj.
  unfold vec, ce. rewrite !(Z.mul_comm n). ring.
Qed.

Lemma updated_bil n Hm l xN (x y y' : arr) : symm_on n Hm -> (forall v, In v l -> (0 <= v < n)%Z) -> (0 <= xN <= n)%Z -> zlen y = (n * n)%Z ->
  (forall q, (0 <= q < n * n)%Z -> zn 0 y q = 0) ->
  updated xN xN (addr n) y y' 0 (fun a b => bil Hm l (vec x n a) (vec x n b)) ->
  zlen y' = (n * n)%Z /\
    (forall p q, (0 <= p < xN)%Z -> (0 <= q < xN)%Z -> ce n y' p q = zhz l Hm (ce n x) p q) /\
    (forall p q, (0 <= p < n)%Z -> (0 <= q < n)%Z -> (xN <= p)%Z \/ (xN <= q)%Z -> ce n y' p q = 0).
Proof.
  intros SY RG Hx Ly Y0 (L & V & U). split; [congruence|]. split.
  - intros p q Hp Hq. specialize (V q p Hq Hp). unfold addr in V. unfold ce. rewrite (Z.mul_comm n q), V, bil_zhz. rewrite (zhz_sym n l Hm (ce n x) q p) by auto. unfold ce. ring.
  - intros p q Hp Hq H. unfold ce. rewrite U; [apply Y0; nia|nia|]. intros k j Hk Hj. unfold addr. intros E.
    assert (E' : (p + n * q = j + n * k)%Z) by lia. destruct (cm_inj n p q j k ltac:(lia) ltac:(lia) E'). lia.
Qed.

Lemma dense_mat_bil n (A : denseM R) : 0 <= zero < 1 -> (0 <= n)%Z -> wf_dense A -> d_nr A = n -> d_nc A = n -> symm_on n (dmat A) -> mat_bil n (SDense (N := N) A) (dmat A).
Proof.
  intros Hz Hn0 WF Hr Hc SY ic l xN x y Rp RG Hx Lx Ly Y0. cbn [m_bilinear].
  destruct (C24_dense_bilinear eps zero infty A ic l xN x n y n) as (y' & E & U); auto.
  - intros k Hk. rewrite Hr. apply RG, zn_In, Hk.
  - intros k Hk. rewrite Hc. apply RG, zn_In, Hk.
  - lia.
  - split; [lia|]. rewrite Hc, Lx. nia.
  - split; [lia|]. rewrite Ly. nia.
  - right. lia.
  - exists y'. split; [exact E|]. now apply (updated_bil n (dmat A) l xN x y y').
Qed.

Lemma sparse_mat_bil n (A : sparseM R) jd : (0 <= n)%Z -> wf_sparse A -> s_nc A = n -> s_jd A = Some jd -> diag_info n (s_jc A) (s_ir A) jd -> symm_on n (smat A) ->
  mat_bil n (SSparse (N := N) A) (smat A).
Proof.
  intros Hn0 WF Hc Hj DI SY ic l xN x y Rp RG Hx Lx Ly Y0. cbn [m_bilinear].
  destruct (sparse_bilinear_gen eps zero infty A jd ic l xN x n y n) as (y' & E & U); auto.
  - now rewrite Hc.
  - intros k Hk. rewrite Hc. apply RG, zn_In, Hk.
  - lia.
  - split; [lia|]. rewrite Hc, Lx. nia.
  - split; [lia|]. rewrite Ly. nia.
  - right. right. split; [lia|]. intros q Hq. apply Y0. now rewrite <- Ly.
  - exists y'. rewrite E. cbn [bind]. split; [reflexivity|]. now apply (updated_bil n (smat A) l xN x y y').
Qed.

(** createDiagSparseMat *)
Lemma diag_mat_bil n (d : R) : (0 <= n)%Z -> exists M, createDiagSparseMat (N := N) n d = Ok M /\ mat_bil n M (fun i j => d * delta i j).
Proof.
  intros Hn0. unfold createDiagSparseMat. set (idx := map Z.of_nat (seq 0 (Z.to_nat (n + 1)))). rcar.
  assert (LI : zlen idx = (n + 1)%Z) by (unfold idx, zlen; rewrite map_length, seq_length; lia).
  assert (VI : forall i, (0 <= i <= n)%Z -> zn 0%Z idx i = i).
  { intros i Hi. unfold zn, idx. rewrite (nth_indep _ 0%Z (Z.of_nat 0)) by (rewrite map_length, seq_length; lia). rewrite map_nth, seq_nth by lia. lia. }
  set (A := mkSparse n n idx idx None (repeat d (Z.to_nat n))).
  assert (LV : zlen (repeat d (Z.to_nat n)) = n) by (rewrite zlen_repeat; lia).
  assert (WF : wf_sparse A).
  { constructor; cbn [A s_nc s_nr s_jc s_ir s_val]; try lia.
    - rewrite VI; lia.
    - intros j Hj. rewrite !VI; lia.
    - rewrite VI; lia.
    - rewrite VI; lia.
    - intros p. rewrite !VI by lia. intros Hp. rewrite VI; lia.
    - intros j p q Hj. rewrite !VI by lia. lia. }
  destruct (C25_sparse_createDiagInfo eps zero infty A (repeat 0%Z (Z.to_nat n)) WF eq_refl) as (jd & E & DI); [cbn [A s_nc]; rewrite zlen_repeat; lia|].
  rewrite E. cbn [bind]. eexists. split; [reflexivity|]. cbn [A s_nr s_nc s_ir s_jc s_val] in *.
  set (B := mkSparse n n idx idx (Some jd) (repeat d (Z.to_nat n))).
  assert (SM : forall i j, (0 <= i < n)%Z -> (0 <= j < n)%Z -> smat B i j = d * delta i j).
  { intros i j Hi Hj. unfold smat, ent. cbn [B s_jc s_ir s_val]. rewrite !VI by lia. rewrite (rsum_delta _ _ j) by (try lia; intros; lia). rewrite VI by lia. unfold delta. rewrite Z.eqb_sym.
    destruct (Z.eqb_spec i j); [|ring]. rewrite zn_repeat by lia. ring. }
  intros ic l xN x y Rp RG Hx Lx Ly Y0.
  destruct (sparse_mat_bil n B jd Hn0 WF eq_refl eq_refl DI) with (ic := ic) (l := l) (xN := xN) (x := x) (y := y) as (y' & E' & L' & V' & U'); auto.
  { intros i j Hi Hj. rewrite !SM by lia. unfold delta. now rewrite Z.eqb_sym. }
  exists y'. split; [exact E'|]. split; [exact L'|]. split; [|exact U'].
  intros p q Hp Hq. rewrite V' by lia. unfold zhz. apply lsum_ext. intros u Hu. apply lsum_ext. intros v Hv. now rewrite SM by auto.
Qed.

Lemma zfill n (body : Z -> arr -> res arr) (a : arr) : (0 <= n <= zlen a)%Z -> (forall i b, (0 <= i < n)%Z -> zlen b = zlen a -> body i b = wr b i (n0 (N := N))) ->
  exists a', for_up 0 n body a = Ok a' /\ zlen a' = zlen a /\ forall k, (0 <= k < n)%Z -> zn 0 a' k = 0.
Proof.
  intros Hn E. apply (wp_inv (for_up 0 n body a) (fun a' => zlen a' = zlen a /\ forall k, (0 <= k < n)%Z -> zn 0 a' k = 0)).
  apply (wp_fill 0 (fun _ => 0)); auto. intros i b Hi Lb. rewrite E by auto. rcar. now rewrite wr_ok by lia.
Qed.

Lemma setupTQ_ok n m Am (s : qp N) l0 l1 k0 : pwf eps zero infty n m Am s l0 l1 k0 [] ->
  exists T Q, setupTQfactorisation (N := N) s = Ok (SUCCESSFUL_RETURN, set_p_T (N := N) T (set_p_Q (N := N) Q s)) /\
    pwf eps zero infty n m Am (set_p_T (N := N) T (set_p_Q (N := N) Q s)) l0 l1 k0 [] /\
    unitq n l0 Q /\ tqf n (p_sizeT s) l0 [] Am Q T.
Proof.
  intros W. destruct W as [En Em Wb Wc LQ LR ES LT WA]. unfold setupTQfactorisation.
  destruct (range_b _ _ _ Wb) as (Rg0 & Rg1). destruct (len_b _ _ _ Wb) as (Ln0 & _). change (st_n (p_bounds s)) with (pV s) in *. rewrite En in *.
  assert (ND : NoDup l0) by exact (rep_NoDup _ _ (wf_ina _ _ _ Wb)). assert (EF : pFR s = zlen l0) by exact (rep_len _ _ (wf_ina _ _ _ Wb)).
  pose proof (zlen_nonneg l0) as P0. rcar.
  destruct (zfill (n * n) (fun i Q => wr Q i (n0 (N := N))) (p_Q s)) as (Q1 & E1 & L1 & V1); [nia|reflexivity|]. rcar. rewrite E1. cbn [bind].
  assert (B : exists Q2 : arr, for_up 0 (pFR s) (fun i (Q : arr) => ii <- rd (p_FR s) i ;; wr Q (ii + n * i) 1) Q1 = Ok Q2 /\ zlen Q2 = (n * n)%Z /\ unitq n l0 Q2).
  { apply (wp_inv (for_up 0 (pFR s) (fun i (Q : arr) => ii <- rd (p_FR s) i ;; wr Q (ii + n * i) 1) Q1) (fun Q2 : arr => zlen Q2 = (n * n)%Z /\ unitq n l0 Q2)). rewrite EF.
    apply wp_for_up with (I := fun j (Q : arr) => zlen Q = (n * n)%Z /\ forall v q, In v l0 -> (0 <= q < zlen l0)%Z -> ce n Q v q = if (q <? j)%Z then delta v (zn 0%Z l0 q) else 0).
    - lia.
    - split; [congruence|]. intros v q Hv Hq. destruct (Z.ltb_spec q 0); [lia|]. specialize (Rg0 v Hv). unfold ce. apply V1. nia.
    - intros i Q Hi (L & V). change (p_FR s) with (il_number (st_ina (p_bounds s))). rewrite (rep_rd _ _ _ Wb) by auto. cbn [bind]. assert (Rv := Rg0 _ (zn_In 0%Z l0 i Hi)).
      rewrite (@wr_ok R) by nia. cbn [wp]. split; [now rewrite zlen_zupd|]. intros v q Hv Hq. specialize (Rg0 v Hv). rewrite ce_upd by nia.
      destruct (Z.eqb_spec q i) as [->|Nq]; [rewrite andb_true_r|rewrite andb_false_r].
      + destruct (Z.ltb_spec i (i + 1)); [|lia]. unfold delta. destruct (Z.eqb_spec v (zn 0%Z l0 i)); [reflexivity|]. rewrite V by auto. destruct (Z.ltb_spec i i); [lia|reflexivity].
      + rewrite V by auto. destruct (Z.ltb_spec q i), (Z.ltb_spec q (i + 1)); try reflexivity; lia.
    - intros Q (L & V). split; [exact L|]. intros v q Hv Hq. rewrite V by auto. destruct (Z.ltb_spec q (zlen l0)); [reflexivity|lia]. }
  destruct B as (Q2 & E2 & L2 & U2). set (m1 := for_up 0 (pFR s) _ Q1). assert (E2' : m1 = Ok Q2) by exact E2. rewrite E2'. clear m1 E2'. cbn [bind].
  destruct (zfill (p_sizeT s * p_sizeT s) (fun i T => wr T i (n0 (N := N))) (p_T s)) as (T & E3 & L3 & V3); [rcar; nia|reflexivity|]. rcar. rewrite E3. cbn [bind].
  exists T, Q2. split; [reflexivity|]. split; [|split; [exact U2|]].
  - constructor; auto. etransitivity; [exact L3|exact LT].
  - split; [change (zlen (@nil Z)) with 0%Z; lia|]. split; [now apply unitq_orth|]. split; intros; change (zlen (@nil Z)) with 0%Z in *; lia.
Qed.

(** dpotrf on a matrix stored in the leading block, and clearing the first
    subdiagonal *)
Lemma potrf_ok n k (R1 : arr) G : (0 < k <= n)%Z -> zlen R1 = (n * n)%Z -> (forall a b, (0 <= a < k)%Z -> (0 <= b < k)%Z -> G a b = G b a) ->
  (forall a b, (0 <= a < k)%Z -> (0 <= b < k)%Z -> ce n R1 a b = G a b) ->
  (forall p q, (0 <= p < n)%Z -> (0 <= q < n)%Z -> (k <= p)%Z \/ (k <= q)%Z -> ce n R1 p q = 0) ->
  exists info (R2 : arr), dpotrf (N := N) k R1 n = Ok (info, R2) /\ zlen R2 = (n * n)%Z /\
   (((0 < info)%Z /\ ~ posdef k G) \/
    ((info <= 0)%Z /\ posdef k G /\ exists R3, for_up 0 (k - 1) (fun i R => wr R (i + 1 + n * i) (n0 (N := N))) R2 = Ok R3 /\ zlen R3 = (n * n)%Z /\
      factor n k R3 G /\ subz n R3 /\ forall i, (0 <= i < k)%Z -> 0 < ce n R3 i i)).
Proof.
  intros Hk L1 SG V1 Z1. destruct (C27_dpotrf eps zero infty k n R1) as (info & R2 & E & L2 & I1 & I2 & I3); [lia|rewrite L1; nia|].
  assert (SM : forall i j, (0 <= i < k)%Z -> (0 <= j < k)%Z -> symm R1 n i j = G i j).
  { intros i j Hi Hj. unfold symm. destruct (Z_le_gt_dec i j).
    - rewrite Z.min_l, Z.max_r by lia. apply V1; lia.
    - rewrite Z.min_r, Z.max_l by lia. rewrite (SG i j) by lia. apply V1; lia. }
  assert (L2' : zlen R2 = (n * n)%Z) by (etransitivity; [exact L2|exact L1]). exists info, R2. split; [exact E|]. split; [exact L2'|]. destruct (Z_lt_le_dec 0 info) as [Ip|Ip].
  - left. split; [exact Ip|]. intros PD. assert (Y : posdef k (symm R1 n)) by (apply (posdef_ext k G); auto; intros; now rewrite SM). apply I1 in Y. lia.
  - right. assert (info = 0%Z) as -> by (destruct (Z.eq_dec info 0) as [->|Ne]; [reflexivity|destruct (I3 Ne); lia]). split; [lia|]. split.
    { apply (posdef_ext k (symm R1 n)); auto. now apply I1. }
    destruct (I2 eq_refl) as (Gr & D & K).
    apply (wp_inv (for_up 0 (k - 1) (fun i R => wr R (i + 1 + n * i)%Z (n0 (N := N))) R2) (fun R3 : arr => zlen R3 = (n * n)%Z /\
      factor n k R3 G /\ subz n R3 /\ forall i, (0 <= i < k)%Z -> 0 < ce n R3 i i)).
    apply wp_for_up with (I := fun j (R3 : arr) => zlen R3 = (n * n)%Z /\ forall p q, (0 <= p < n)%Z -> (0 <= q < n)%Z -> ce n R3 p q = if ((p =? q + 1) && (q <? j))%Z then 0 else ce n R2 p q).
    + lia.
    + split; [exact L2'|]. intros p q Hp Hq. destruct (Z.ltb_spec q 0); [lia|]. now rewrite andb_false_r.
    + intros j R3 Hj (L3 & V3). rewrite (@wr_ok R) by nia. cbn [wp]. split; [now rewrite zlen_zupd|]. intros p q Hp Hq. rewrite ce_upd by nia. rewrite V3 by lia.
      destruct (Z.eqb_spec p (j + 1)), (Z.eqb_spec q j), (Z.eqb_spec p (q + 1)), (Z.ltb_spec q j), (Z.ltb_spec q (j + 1)); cbn [andb]; try reflexivity; lia.
    + intros R3 (L3 & V3). split; [exact L3|].
      assert (T : forall i j, (0 <= i < k)%Z -> (0 <= j < k)%Z -> triu R3 n i j = triu R2 n i j).
      { intros i j Hi Hj. unfold triu. destruct (Z.leb_spec i j); [|reflexivity]. fold (ce n R3 i j) (ce n R2 i j). rewrite V3 by lia. destruct (Z.eqb_spec i (j + 1)); [lia|reflexivity]. }
      assert (DD : forall i, (0 <= i < k)%Z -> 0 < ce n R3 i i).
      { intros i Hi. rewrite V3 by lia. destruct (Z.eqb_spec i (i + 1)); [lia|]. cbn [andb]. specialize (D i Hi). unfold triu in D. rewrite Z.leb_refl in D. exact D. }
      split; [split|].
      * intros i j Hi Hj. rewrite <- SM by lia. rewrite <- Gr by lia. apply rsum_ext. intros p Hp. rewrite !T by lia. reflexivity.
      * intros i Hi. specialize (DD i Hi). lra.
      * split; [|exact DD]. intros p Hp Hp'. rewrite V3 by lia. rewrite Z.eqb_refl. cbn [andb]. destruct (Z.ltb_spec p (k - 1)); [reflexivity|].
        unfold ce. transitivity (zn 0 R1 (p + 1 + n * p)); [apply K; lia|]. apply Z1; lia.
Qed.

Lemma cols_ok n M Hm ic l (R0 : arr) : mat_ok eps zero infty n M Hm -> il_rep ic l -> (forall v, In v l -> (0 <= v < n)%Z) -> (zlen l <= n)%Z -> zlen R0 = (n * n)%Z ->
  (forall q, (0 <= q < n * n)%Z -> zn 0 R0 q = 0) ->
  wp (for_up 0 (zlen l) (fun j R => c <- rd (il_number ic) j ;; at_off (N := N) R (j * n) (m_getCol (N := N) M c ic n1)) R0)
    (fun R1 : arr => zlen R1 = (n * n)%Z /\ (forall p q, (0 <= p < zlen l)%Z -> (0 <= q < zlen l)%Z -> ce n R1 p q = Hm (zn 0%Z l p) (zn 0%Z l q)) /\
      (forall p q, (0 <= p < n)%Z -> (0 <= q < n)%Z -> (zlen l <= p)%Z \/ (zlen l <= q)%Z -> ce n R1 p q = 0)).
Proof.
  intros MO RP RG Hl L0 Z0. pose proof (zlen_nonneg l) as P0.
  apply wp_for_up with (I := fun j (R1 : arr) => zlen R1 = (n * n)%Z /\ forall p q, (0 <= p < n)%Z -> (0 <= q < n)%Z -> ce n R1 p q = if ((p <? zlen l) && (q <? j))%Z then Hm (zn 0%Z l p) (zn 0%Z l q) else 0).
  - lia.
  - split; [exact L0|]. intros p q Hp Hq. destruct (Z.ltb_spec q 0); [lia|]. rewrite andb_false_r. apply Z0. nia.
  - intros j R1 Hj (L1 & V1). rewrite (rd_rep _ l) by auto. cbn [bind]. assert (Rv := RG _ (zn_In 0%Z l j Hj)).
    unfold at_off. rcar. assert (Ho : (0 <= j * n <= zlen R1)%Z) by nia.
    destruct (Z.ltb_spec (j * n) 0); [lia|]. destruct (Z.ltb_spec (zlen R1) (j * n)); [lia|]. cbn [orb].
    set (b := skipn (Z.to_nat (j * n)) R1). set (a := firstn (Z.to_nat (j * n)) R1).
    assert (Lb : zlen b = (zlen R1 - j * n)%Z) by (unfold b, zlen in *; rewrite skipn_length; lia).
    assert (La : zlen a = (j * n)%Z) by (unfold a, zlen in *; rewrite firstn_length; lia).
    assert (AB : a ++ b = R1) by (unfold a, b; apply firstn_skipn).
    destruct (mo_col _ _ _ _ _ _ MO (zn 0%Z l j) ic l b RP RG Rv) as (b' & E & Lb' & V & U); [nia|]. rcar. rewrite E. cbn [bind wp].
    split; [rewrite zlen_app; lia|]. intros p q Hp Hq. unfold ce. destruct (Z_lt_le_dec q j) as [Hqj|Hqj].
    + rewrite zn_app1 by nia. replace (zn 0 a (p + n * q)) with (ce n R1 p q) by (unfold ce; rewrite <- AB at 1; now rewrite zn_app1 by nia).
      rewrite V1 by lia. destruct (Z.ltb_spec q j), (Z.ltb_spec q (j + 1)); try lia. reflexivity.
    + rewrite zn_app2 by nia. rewrite La. assert (B : zn 0 b (p + n * q - j * n) = ce n R1 p q) by (unfold ce; rewrite <- AB at 1; rewrite zn_app2 by nia; now rewrite La).
      destruct (Z.ltb_spec q (j + 1)) as [Hq1|Hq1].
      * assert (q = j) as -> by lia. replace (p + n * j - j * n)%Z with p in * by lia. destruct (Z.ltb_spec p (zlen l)); cbn [andb]; [now apply V|].
        rewrite U by lia. rewrite B, V1 by lia. destruct (Z.ltb_spec j j); [lia|]. now rewrite andb_false_r.
      * rewrite andb_false_r. rewrite U by nia. rewrite B, V1 by lia. destruct (Z.ltb_spec q j); [lia|]. now rewrite andb_false_r.
  - intros R1 (L1 & V1). split; [exact L1|]. split.
    + intros p q Hp Hq. rewrite V1 by lia. destruct (Z.ltb_spec p (zlen l)), (Z.ltb_spec q (zlen l)); try lia. reflexivity.
    + intros p q Hp Hq H. rewrite V1 by lia. destruct (Z.ltb_spec p (zlen l)), (Z.ltb_spec q (zlen l)); try lia; reflexivity.
Qed.

(** making Z trivial *)
Lemma trivial_ok n FR l (Q : arr) : zlen Q = (n * n)%Z -> (forall v, In v l -> (0 <= v < n)%Z) -> (zlen l <= n)%Z -> (forall k, (0 <= k < zlen l)%Z -> rd FR k = Ok (zn 0%Z l k)) ->
  wp (for_up 0 (zlen l) (fun j Q => Q <- for_up 0 n (fun i Q => wr Q (i + n * j) (n0 (N := N))) Q ;; f <- rd FR j ;; wr Q (f + n * j) (n1 (N := N))) Q)
    (fun Q' : arr => zlen Q' = (n * n)%Z /\ unitq n l Q').
Proof.
  intros LQ RG Hl RD. pose proof (zlen_nonneg l) as P0.
  apply wp_for_up with (I := fun j (Q : arr) => zlen Q = (n * n)%Z /\ forall v q, In v l -> (0 <= q < j)%Z -> ce n Q v q = delta v (zn 0%Z l q)).
  - lia.
  - split; [exact LQ|]. intros; lia.
  - intros j Q1 Hj (L1 & V1). apply wp_bind.
    apply wp_for_up with (I := fun i (Q2 : arr) => zlen Q2 = (n * n)%Z /\ forall p q, (0 <= p < n)%Z -> (0 <= q < n)%Z -> ce n Q2 p q = if ((p <? i) && (q =? j))%Z then 0 else ce n Q1 p q).
    + lia.
    + split; [exact L1|]. intros p q Hp Hq. destruct (Z.ltb_spec p 0); [lia|reflexivity].
    + intros i Q2 Hi (L2 & V2). rewrite (@wr_ok R) by nia. cbn [wp]. split; [now rewrite zlen_zupd|]. intros p q Hp Hq. rewrite ce_upd by nia. rewrite V2 by lia.
      destruct (Z.eqb_spec p i), (Z.eqb_spec q j), (Z.ltb_spec p i), (Z.ltb_spec p (i + 1)); cbn [andb]; try reflexivity; lia.
    + intros Q2 (L2 & V2). rewrite RD by lia. cbn [bind]. assert (Rv := RG _ (zn_In 0%Z l j Hj)). rewrite (@wr_ok R) by nia. cbn [wp].
      split; [now rewrite zlen_zupd|]. intros v q Hv Hq. specialize (RG v Hv). rewrite ce_upd by nia. rewrite V2 by lia. destruct (Z.eqb_spec q j) as [->|Nq].
      * rewrite !andb_true_r. unfold delta. destruct (Z.eqb_spec v (zn 0%Z l j)); [reflexivity|]. destruct (Z.ltb_spec v n); [reflexivity|lia].
      * rewrite !andb_false_r. apply V1; auto. lia.
  - intros Q1 (L1 & V1). split; [exact L1|]. intros v q Hv Hq. now apply V1.
Qed.

Lemma diag_chol_ok n k (v : R) (R0 : arr) G : (0 <= k <= n)%Z -> v <> 0 -> zlen R0 = (n * n)%Z -> (forall q, (0 <= q < n * n)%Z -> zn 0 R0 q = 0) ->
  (forall a b, (0 <= a < k)%Z -> (0 <= b < k)%Z -> G a b = v * v * delta a b) ->
  wp (for_up 0 n (fun i R => wr R (i + n * i) v) R0) (fun R1 : arr => zlen R1 = (n * n)%Z /\ factor n k R1 G /\ subz n R1 /\ forall i, (0 <= i < k)%Z -> ce n R1 i i = v).
Proof.
  intros Hk Nv L0 Z0 HG. apply wp_for_up with (I := fun j (R1 : arr) => zlen R1 = (n * n)%Z /\ forall p q, (0 <= p < n)%Z -> (0 <= q < n)%Z -> ce n R1 p q = if ((p =? q) && (p <? j))%Z then v else 0).
  - lia.
  - split; [exact L0|]. intros p q Hp Hq. destruct (Z.ltb_spec p 0); [lia|]. rewrite andb_false_r. apply Z0. nia.
  - intros i R1 Hi (L1 & V1). rewrite (@wr_ok R) by nia. cbn [wp]. split; [now rewrite zlen_zupd|]. intros p q Hp Hq. rewrite ce_upd by nia. rewrite V1 by lia.
    destruct (Z.eqb_spec p i), (Z.eqb_spec q i), (Z.eqb_spec p q), (Z.ltb_spec p i), (Z.ltb_spec p (i + 1)); cbn [andb]; try reflexivity; lia.
  - intros R1 (L1 & V1). assert (V : forall p q, (0 <= p < n)%Z -> (0 <= q < n)%Z -> ce n R1 p q = v * delta p q).
    { intros p q Hp Hq. rewrite V1 by lia. unfold delta. destruct (Z.ltb_spec p n); [|lia]. rewrite andb_true_r. destruct (Z.eqb_spec p q); ring. }
    assert (D : forall i, (0 <= i < k)%Z -> ce n R1 i i = v) by (intros i Hi; rewrite V by lia; rewrite delta_refl; ring).
    split; [exact L1|]. split; [split|split; [|exact D]].
    + intros a b Ha Hb. rewrite HG by lia. assert (T : forall p q, (0 <= p < k)%Z -> (0 <= q < k)%Z -> triu R1 n p q = v * delta p q).
      { intros p q Hp Hq. unfold triu. destruct (Z.leb_spec p q); [apply V; lia|]. unfold delta. destruct (Z.eqb_spec p q); [lia|ring]. }
      rewrite (rsum_delta _ _ a); [|lia|intros p Hp Ne; rewrite !T by lia; unfold delta; destruct (Z.eqb_spec p a); [lia|ring]].
      rewrite !T by lia. rewrite delta_refl. ring.
    + intros i Hi. now rewrite D.
    + intros p Hp Hp'. rewrite V by lia. unfold delta. destruct (Z.eqb_spec (p + 1) p); [lia|ring].
Qed.

Lemma set_p_Q_id (s : qp N) : set_p_Q (N := N) (p_Q s) s = s.
Proof. now destruct s. Qed.

Lemma usingReg_pos (b : qpb N) : usingReg b = true -> 0 < q_regVal b.
Proof.
  unfold usingReg. intros U. assert (U' : Rltb zero (q_regVal b) = true) by exact U. destruct (Rltb_spec zero (q_regVal b)) as [L|]; [|discriminate].
  apply Rle_lt_trans with zero; [right; now symmetry|exact L].
Qed.

(** the Hessian data of the object are Hm *)
Definition hdata (n : Z) (s : qp N) (Hm : Z -> Z -> R) : Prop :=
  hess eps zero infty n (p_b s) Hm /\ symm_on n Hm /\ forall M, plainH (p_b s) = true -> q_H (p_b s) = Some M -> mat_bil n M Hm.

Definition ccase (n nz : Z) (l : list Z) (Hm : Z -> Z -> R) (s : qp N) (Q : arr) (r : returnValue) (s' : qp N) : Prop := exists Ra : arr, zlen Ra = (n * n)%Z /\
   ((r = SUCCESSFUL_RETURN /\ s' = up_b (set_q_R (N := N) Ra) (set_p_Q (N := N) Q s) /\ rinv n nz l Hm Q Ra /\ posdef nz (zhz l Hm (ce n Q)) /\ (forall i, (0 <= i < nz)%Z -> 0 < ce n Ra i i)) \/
    (r = RET_HESSIAN_NOT_SPD /\ (exists o, s' = up_b (fun b => set_q_htype (N := N) HST_SEMIDEF (set_q_opts (N := N) o (set_q_R (N := N) Ra b))) (set_p_Q (N := N) Q s)) /\ plainH (p_b s) = true /\ ~ posdef nz (zhz l Hm (ce n Q))) \/
    ((r = RET_UNKNOWN_BUG \/ r = RET_CHOLESKY_OF_ZERO_HESSIAN) /\ s' = up_b (set_q_R (N := N) Ra) (set_p_Q (N := N) Q s) /\ q_htype (p_b s) = HST_ZERO /\ usingReg (p_b s) = false)).

Lemma computeProjectedCholesky_ok n m Am Hm (s : qp N) l0 l1 k0 k1 : pwf eps zero infty n m Am s l0 l1 k0 k1 -> tqf n (p_sizeT s) l0 k1 Am (p_Q s) (p_T s) ->
  hdata n s Hm -> (l1 = [] -> k1 = [] -> unitq n l0 (p_Q s) \/ exists c, forall i j, Hm i j = c * delta i j) ->
  exists Q : arr, zlen Q = (n * n)%Z /\ tqf n (p_sizeT s) l0 k1 Am Q (p_T s) /\ (Q = p_Q s \/ unitq n l0 Q /\ k1 = []) /\
  wp (computeProjectedCholesky (N := N) s) (fun '(r, s') => ccase n (zlen l0 - zlen k1) l0 Hm s Q r s').
Proof.
  intros W TQ (HE & SY & MB) UQ. destruct W as [En Em Wb Wc LQ LR ES LT WA]. unfold computeProjectedCholesky.
  destruct (range_b _ _ _ Wb) as (Rg0 & Rg1). destruct (len_b _ _ _ Wb) as (Ln0 & _). change (st_n (p_bounds s)) with (pV s) in *. rewrite En in *.
  assert (ND : NoDup l0) by exact (rep_NoDup _ _ (wf_ina _ _ _ Wb)). assert (EF : pFR s = zlen l0) by exact (rep_len _ _ (wf_ina _ _ _ Wb)).
  assert (EC : pAC s = zlen k1) by exact (rep_len _ _ (wf_act _ _ _ Wc)). assert (EX : pFX s = zlen l1) by exact (rep_len _ _ (wf_act _ _ _ Wb)).
  pose proof (zlen_nonneg l0) as P0. pose proof (zlen_nonneg l1) as P1. pose proof (zlen_nonneg k1) as P2.
  assert (RP : il_rep (p_free s) l0) by exact (wf_ina _ _ _ Wb).
  assert (RD : forall k, (0 <= k < zlen l0)%Z -> rd (p_FR s) k = Ok (zn 0%Z l0 k)) by (intros k Hk; now apply (rep_rd _ _ _ Wb)).
  assert (OR : orth l0 (zlen l0) (ce n (p_Q s))) by apply TQ. assert (NZ : (zlen k1 <= zlen l0)%Z) by apply TQ.
  assert (SG : forall Q : arr, forall a b, zhz l0 Hm (ce n Q) a b = zhz l0 Hm (ce n Q) b a) by (intros; now apply (zhz_sym n)).
  destruct (zfill (n * n) (fun i R => wr R i (n0 (N := N))) (q_R (p_b s))) as (R0 & E0 & L0 & V0); [rcar; nia|reflexivity|].
  assert (L0' : zlen R0 = (n * n)%Z) by (etransitivity; [exact L0|exact LR]).
  rewrite EX, EC, EF. unfold pZ. rewrite EF, EC.
  destruct (Z.eqb_spec (zlen l1 + zlen k1) 0) as [EZ|NEZ].
  { assert (l1 = []) as -> by (destruct l1; [reflexivity|rewrite zlen_cons in *; pose proof (zlen_nonneg l1); lia]).
    assert (k1 = []) as -> by (destruct k1; [reflexivity|rewrite (zlen_cons _ k1) in *; pose proof (zlen_nonneg k1); lia]).
    specialize (UQ eq_refl eq_refl). change (zlen (@nil Z)) with 0%Z in *. rewrite Z.sub_0_r.
    assert (GQ : forall a b, (0 <= a < zlen l0)%Z -> (0 <= b < zlen l0)%Z -> zhz l0 Hm (ce n (p_Q s)) a b = Hm (zn 0%Z l0 a) (zn 0%Z l0 b)).
    { intros a b Ha Hb. destruct UQ as [UQ|(c & Hc)]; [now apply unitq_zhz|]. rewrite (scalar_zhz l0 Hm (ce n (p_Q s)) (zlen l0) c) by auto. rewrite Hc. f_equal. unfold delta.
      destruct (Z.eqb_spec a b) as [->|Ne]; [now rewrite Z.eqb_refl|]. destruct (Z.eqb_spec (zn 0%Z l0 a) (zn 0%Z l0 b)) as [E|]; [|reflexivity]. exfalso. apply Ne. now apply (NoDup_zz l0). }
    exists (p_Q s). split; [exact LQ|]. split; [exact TQ|]. split; [now left|].
    apply wp_bind. unfold computeCholesky. change (nV (p_b s)) with (pV s). rewrite En. rcar. rewrite E0. cbn [bind]. change (nFR (p_b s)) with (pFR s). rewrite EF.
    assert (Diag : forall v : R, 0 < v -> (forall i j, Hm i j = v * v * delta i j) ->
      wp (R <- for_up 0 n (fun i R => wr R (i + n * i)%Z v) R0 ;; Ok (SUCCESSFUL_RETURN, set_q_R (N := N) R (p_b s)))
       (fun '(r, b) => wp (Ok (r, set_p_b (N := N) b s)) (fun '(r, s') => ccase n (zlen l0) l0 Hm s (p_Q s) r s'))).
    { intros v Pv Hv. apply wp_bind. eapply wp_mono; [apply (diag_chol_ok n (zlen l0) v R0 (zhz l0 Hm (ce n (p_Q s)))); auto; try lra|].
      { intros a b Ha Hb. apply (scalar_zhz l0 Hm (ce n (p_Q s)) (zlen l0)); auto. }
      intros R1 (L1 & F1 & S1 & D1). cbn [wp]. exists R1. split; [exact L1|]. left. split; [reflexivity|]. split; [now rewrite set_p_Q_id|]. split; [split; auto|]. split.
      - apply (gram_posdef (zlen l0) (triu R1 n)); [apply triu_upper| |apply F1]. intros i Hi. unfold triu. rewrite Z.leb_refl. apply F1, Hi.
      - intros i Hi. now rewrite D1. }
    destruct (plainH (p_b s)) eqn:PH.
    - destruct (hess_plain eps zero infty n (p_b s) Hm HE PH) as (M & EM & EM' & MO).
      assert (Plain : wp (if (zlen l0 <=? 0)%Z then Ok (SUCCESSFUL_RETURN, set_q_R (N := N) R0 (p_b s)) else
          M <- q_theH (p_b s) ;;
          R <- for_up 0 (zlen l0) (fun j R =>
                 c <- rd (FR_idx (p_b s)) j ;; at_off R (j * n) (m_getCol (N := N) M c (st_ina (q_bounds (p_b s))) n1)) R0 ;;
          '(info, R) <- dpotrf (N := N) (zlen l0) R n ;;
          if (0 <? info)%Z then
            r0 <- rd R 0 ;;
            let o := q_opts (p_b s) in
            let o := if r0 <' n0 then
                       set_o_epsRegularisation
                         (getMin (-' r0 +' o_epsRegularisation o) (nsqrt (nabs (o_epsRegularisation o)))) o
                     else o in
            Ok (RET_HESSIAN_NOT_SPD, set_q_htype HST_SEMIDEF (set_q_opts o (set_q_R R (p_b s))))
          else
            R <- for_up 0 (zlen l0 - 1) (fun i R => wr R (i + 1 + n * i)%Z n0) R ;;
            Ok (SUCCESSFUL_RETURN, set_q_R R (p_b s)))
         (fun '(r, b) => wp (Ok (r, set_p_b (N := N) b s)) (fun '(r, s') => ccase n (zlen l0) l0 Hm s (p_Q s) r s'))).
      { destruct (Z.leb_spec (zlen l0) 0) as [Lz|Lz].
        { cbn [wp]. exists R0. split; [exact L0'|]. left. split; [reflexivity|]. split; [now rewrite set_p_Q_id|]. split; [split; [split; [intros i j Hi; lia|intros i Hi; lia]|]|split; [intros x (i & Hi & _); lia|intros; lia]].
          intros p Hp Hp'. apply V0. nia. }
        rewrite EM'. cbn [bind]. apply wp_bind. eapply wp_mono; [apply (cols_ok n M Hm (p_free s) l0 R0); auto|]. intros R1 (L1 & V1 & Z1).
        destruct (potrf_ok n (zlen l0) R1 (zhz l0 Hm (ce n (p_Q s)))) as (info & R2 & E & L2 & K); auto; try lia; [intros; rewrite GQ by auto; now apply V1|].
        rcar. rewrite E. cbn [bind]. destruct K as [(Ip & NP)|(Ip & PD & R3 & E3 & L3 & F3 & S3 & D3)].
        - destruct (Z.ltb_spec 0 info); [|lia]. rewrite (rd_ok 0) by nia. cbn [bind wp]. exists R2. split; [exact L2|]. right. left. split; [reflexivity|]. split; [eexists; rewrite set_p_Q_id; reflexivity|]. auto.
        - destruct (Z.ltb_spec 0 info); [lia|]. rewrite E3. cbn [bind wp]. exists R3. split; [exact L3|]. left. split; [reflexivity|]. split; [now rewrite set_p_Q_id|]. split; [split; auto|]. auto. }
      clear Diag. unfold plainH in PH. destruct (q_htype (p_b s)); try discriminate PH; (eapply wp_mono; [exact Plain|intros [r b] H; exact H]).
    - unfold plainH in PH. unfold hess in HE. destruct (q_htype (p_b s)) eqn:HT; try discriminate PH.
      + destruct (usingReg (p_b s)) eqn:UR.
        * assert (PR : 0 < q_regVal (p_b s)) by (apply usingReg_pos; exact UR).
          eapply wp_mono; [apply (Diag (sqrt (q_regVal (p_b s)))); [now apply sqrt_lt_R0|]|intros [r b] H; exact H]. intros i j. rewrite sqrt_sqrt by lra. apply HE.
        * cbn [wp]. exists R0. split; [exact L0'|]. right. right. split; [auto|]. split; [now rewrite set_p_Q_id|]. auto.
      + eapply wp_mono; [apply (Diag 1); [lra|]|intros [r b] H; exact H]. intros i j. rewrite HE. ring. }
  rcar. rewrite E0. cbn [bind].
  destruct (Z.eqb_spec (zlen l0 - zlen k1) 0) as [Ez|Nz].
  { exists (p_Q s). split; [exact LQ|]. split; [exact TQ|]. split; [now left|]. cbn [wp]. exists R0. split; [exact L0'|]. left. split; [reflexivity|].
    split; [now rewrite set_p_Q_id|]. rewrite Ez. split; [split; [split; [intros i j Hi; lia|intros i Hi; lia]|]|split; [intros x (i & Hi & _); lia|intros; lia]].
    intros p Hp Hp'. apply V0. nia. }
  set (nz := (zlen l0 - zlen k1)%Z) in *.
  (* the common end *)
  assert (End : forall (Q R1 : arr), zlen R1 = (n * n)%Z -> (forall a b, (0 <= a < nz)%Z -> (0 <= b < nz)%Z -> ce n R1 a b = zhz l0 Hm (ce n Q) a b) ->
    (forall p q, (0 <= p < n)%Z -> (0 <= q < n)%Z -> (nz <= p)%Z \/ (nz <= q)%Z -> ce n R1 p q = 0) -> (plainH (p_b s) = true \/ posdef nz (zhz l0 Hm (ce n Q))) ->
    wp (let s := set_p_Q (N := N) Q s in
      '(info, R) <- dpotrf (N := N) nz R1 n ;;
      if (0 <? info)%Z then
        r0 <- rd R 0 ;;
        let o := p_opts s in
        let o := if r0 <' n0 then
                   set_o_epsRegularisation (getMin (-' r0 +' o_epsRegularisation o) (nsqrt (nabs (o_epsRegularisation o)))) o
                 else o in
        Ok (RET_HESSIAN_NOT_SPD, up_b (fun b => set_q_htype HST_SEMIDEF (set_q_opts o (set_q_R R b))) s)
      else
        R <- for_up 0 (nz - 1) (fun i R => wr R (i + 1 + n * i)%Z n0) R ;;
        Ok (SUCCESSFUL_RETURN, up_b (set_q_R R) s)) (fun '(r, s') => ccase n nz l0 Hm s Q r s')).
  { intros Q R1 L1 V1 Z1 PP. destruct (potrf_ok n nz R1 (zhz l0 Hm (ce n Q))) as (info & R2 & E & L2 & K); auto; try lia.
    cbv zeta. rcar. rewrite E. cbn [bind]. destruct K as [(Ip & NP)|(Ip & PD & R3 & E3 & L3 & F3 & S3 & D3)].
    - destruct (Z.ltb_spec 0 info); [|lia]. rewrite (rd_ok 0) by nia. cbn [bind wp]. exists R2. split; [exact L2|]. right. left. split; [reflexivity|]. split; [eexists; reflexivity|].
      destruct PP as [PP|PP]; [auto|contradiction].
    - destruct (Z.ltb_spec 0 info); [lia|]. rewrite E3. cbn [bind wp]. exists R3. split; [exact L3|]. left. split; [reflexivity|]. split; [reflexivity|]. split; [split; auto|]. auto. }
  destruct (plainH (p_b s)) eqn:PH.
  - destruct (hess_plain eps zero infty n (p_b s) Hm HE PH) as (M & EM & EM' & MO). specialize (MB M eq_refl EM).
    destruct (Z.eqb_spec (zlen k1) 0) as [K0|K0].
    + assert (k1 = []) as -> by (destruct k1; [reflexivity|rewrite (zlen_cons _ k1) in *; pose proof (zlen_nonneg k1); lia]).
      change (zlen (@nil Z)) with 0%Z in *. assert (Enz : nz = zlen l0) by lia.
      destruct (wp_inv _ _ (trivial_ok n (p_FR s) l0 (p_Q s) LQ Rg0 ltac:(lia) RD)) as (Q & EQ & L1 & U1).
      exists Q. split; [exact L1|]. split; [|split; [auto|]].
      { split; [change (zlen (@nil Z)) with 0%Z; lia|]. split; [now apply unitq_orth|]. split; intros; change (zlen (@nil Z)) with 0%Z in *; lia. }
      assert (Plain : wp (c <- (Q <- for_up 0 nz (fun j Q =>
                    Q <- for_up 0 n (fun i Q => wr Q (i + n * j) (n0 (N := N))) Q ;;
                    f <- rd (p_FR s) j ;; wr Q (f + n * j) n1) (p_Q s) ;;
             M <- q_theH (p_b s) ;;
             R <- for_up 0 (zlen l0) (fun j R => c <- rd (p_FR s) j ;; at_off R (j * n) (m_getCol M c (p_free s) n1)) R0 ;;
             Ok (Next (Q, R))) ;;
             match c with
             | Brk r => Ok (r, up_b (N := N) (set_q_R (N := N) R0) s)
             | Next (Q, R1) => let s := set_p_Q (N := N) Q s in
                '(info, R) <- dpotrf (N := N) nz R1 n ;;
                if (0 <? info)%Z then
                  r0 <- rd R 0 ;;
                  let o := p_opts s in
                  let o := if r0 <' n0 then
                             set_o_epsRegularisation (getMin (-' r0 +' o_epsRegularisation o) (nsqrt (nabs (o_epsRegularisation o)))) o
                           else o in
                  Ok (RET_HESSIAN_NOT_SPD, up_b (fun b => set_q_htype HST_SEMIDEF (set_q_opts o (set_q_R R b))) s)
                else
                  R <- for_up 0 (nz - 1) (fun i R => wr R (i + 1 + n * i)%Z n0) R ;;
                  Ok (SUCCESSFUL_RETURN, up_b (set_q_R R) s) end) (fun '(r, s') => ccase n nz l0 Hm s Q r s')).
      { rewrite bind_bind. rewrite Enz at 1. apply wp_bind. match goal with |- wp ?m _ => replace m with (Ok Q) by (symmetry; exact EQ) end. cbn [wp].
        rewrite EM'. cbn [bind]. apply wp_bind, wp_bind. eapply wp_mono; [apply (cols_ok n M Hm (p_free s) l0 R0); auto|]. intros R1 (V0' & V1 & V2). cbn [wp].
        apply End; auto; [|rewrite Enz; exact V2]. rewrite Enz. intros a b Ha Hb. rewrite V1 by auto. symmetry. now apply unitq_zhz. }
      unfold plainH in PH. destruct (q_htype (p_b s)); try discriminate PH; exact Plain.
    + exists (p_Q s). split; [exact LQ|]. split; [exact TQ|]. split; [now left|].
      destruct (MB (p_free s) l0 nz (p_Q s) R0) as (R1 & E1 & L1 & V1 & Z1); auto; try lia.
      assert (Plain : wp (c <- (M <- q_theH (p_b s) ;;
             R <- m_bilinear (N := N) M (p_free s) nz (p_Q s) n R0 n ;; Ok (Next (p_Q s, R))) ;;
             match c with
             | Brk r => Ok (r, up_b (N := N) (set_q_R (N := N) R0) s)
             | Next (Q, R1) => let s := set_p_Q (N := N) Q s in
                '(info, R) <- dpotrf (N := N) nz R1 n ;;
                if (0 <? info)%Z then
                  r0 <- rd R 0 ;;
                  let o := p_opts s in
                  let o := if r0 <' n0 then
                             set_o_epsRegularisation (getMin (-' r0 +' o_epsRegularisation o) (nsqrt (nabs (o_epsRegularisation o)))) o
                           else o in
                  Ok (RET_HESSIAN_NOT_SPD, up_b (fun b => set_q_htype HST_SEMIDEF (set_q_opts o (set_q_R R b))) s)
                else
                  R <- for_up 0 (nz - 1) (fun i R => wr R (i + 1 + n * i)%Z n0) R ;;
                  Ok (SUCCESSFUL_RETURN, up_b (set_q_R R) s) end) (fun '(r, s') => ccase n nz l0 Hm s (p_Q s) r s')).
      { rewrite EM'. cbn [bind]. rcar. rewrite E1. cbn [bind]. apply End; auto. }
      unfold plainH in PH. destruct (q_htype (p_b s)); try discriminate PH; exact Plain.
  - exists (p_Q s). split; [exact LQ|]. split; [exact TQ|]. split; [now left|].
    assert (PS : forall c, 0 < c -> (forall i j, Hm i j = c * delta i j) -> posdef nz (zhz l0 Hm (ce n (p_Q s)))).
    { intros c Pc Hc. apply (posdef_ext nz (fun a b => c * delta a b)); [intros a b Ha Hb; symmetry; apply (scalar_zhz l0 Hm _ (zlen l0)); auto; lia|].
      intros x (i & Hi & Xi). assert (E : quad nz (fun a b => c * delta a b) x = c * rsum 0 nz (fun a => x a * x a)).
      { unfold quad. rewrite <- rsum_scal. apply rsum_ext. intros a Ha. rewrite (rsum_delta _ _ a); [|lia|intros b Hb Ne; unfold delta; destruct (Z.eqb_spec a b); [lia|ring]]. rewrite delta_refl. ring. }
      rewrite E. apply Rmult_lt_0_compat; [exact Pc|]. assert (NN := rsum_nonneg 0 nz (fun a => x a * x a) ltac:(intros; nra)). pose proof (rsum_sq_nz nz x i Hi Xi). lra. }
    unfold plainH in PH. unfold hess in HE. destruct (q_htype (p_b s)) eqn:HT; try discriminate PH.
    + destruct (usingReg (p_b s)) eqn:UR.
      * assert (PR : 0 < q_regVal (p_b s)) by (apply usingReg_pos; exact UR).
        destruct (diag_mat_bil n (q_regVal (p_b s)) ltac:(lia)) as (M & ED & MBd). rcar. rewrite ED. cbn [bind].
        destruct (MBd (p_free s) l0 nz (p_Q s) R0) as (R1 & E1 & L1 & V1 & Z1); auto; try lia. rewrite E1. cbn [bind].
        apply End; auto; [|right; now apply (PS (q_regVal (p_b s)))]. intros a b Ha Hb. rewrite V1 by auto. unfold zhz. apply lsum_ext. intros u _. apply lsum_ext. intros v _. now rewrite HE.
      * destruct (Z.ltb_spec 0 nz); [|lia]. cbn [bind wp]. exists R0. split; [exact L0'|]. right. right. split; [auto|]. split; [now rewrite set_p_Q_id|]. auto.
    + destruct (diag_mat_bil n 1 ltac:(lia)) as (M & ED & MBd). rcar. change (createDiagSparseMat n n1) with (createDiagSparseMat (N := N) n 1). rewrite ED. cbn [bind].
      destruct (MBd (p_free s) l0 nz (p_Q s) R0) as (R1 & E1 & L1 & V1 & Z1); auto; try lia. rewrite E1. cbn [bind].
      apply End; auto; [|right; apply (PS 1); [lra|intros; rewrite HE; ring]]. intros a b Ha Hb. rewrite V1 by auto. unfold zhz. apply lsum_ext. intros u _. apply lsum_ext. intros v _. rewrite HE. ring.
Qed.
End X14.
