(** Removing a row from T restores the reverse triangular form. *)
From Verif Require Import Base Types Num Options Indexlist IndexlistProofs Loops RSum LinSpec SafeLib SubjectTo SubjectToProofs SubjectToProofs2
  Matrices MatLib MatSafe LinAlg PropLinAlg QProblemB QPBSafe QPBX1 QPBX2 QPBX3 QProblem QPX1 QPX2 QPX3 QPX4 QPX5.
Local Open Scope R_scope.

Section X7.
Variables eps zero infty : R.
Notation N := (RNumT eps zero infty).
Notation arr := (list R).
Hypothesis zero_0 : zero = 0.

Lemma givens_exact (x y : R) : exists c sn, computeGivens (N := N) x y = (c * x + sn * y, 0, c, sn) /\ c * c + sn * sn = 1 /\ - sn * x + c * y = 0 /\
  (c * x + sn * y) * (c * x + sn * y) = x * x + y * y.
Proof.
  destruct (computeGivens (N := N) x y) as [[[x' y'] c] sn] eqn:EG. apply C28_computeGivens in EG as (CS & AP & _ & NR & Z0 & Z1); [|lra].
  unfold applyGivens in AP. rnum in AP. injection AP as AP1 AP2. exists c, sn.
  assert (Y0 : y' = 0).
  { destruct (Rle_lt_dec (Rabs y) zero) as [Le|Lt]; [|auto]. destruct (Z1 Le) as (_ & _ & ->).
    rewrite zero_0 in Le. pose proof (Rabs_pos y). assert (E : Rabs y = 0) by lra. destruct (Req_dec y 0) as [|Ne]; [auto|]. apply Rabs_no_R0 in Ne. contradiction. }
  rewrite Y0 in *. rewrite AP1. split; [reflexivity|]. split; [exact CS|]. split; [exact AP2|]. lra.
Qed.

(** columns q+1 and q of T, rows lo..hi-1 *)
Lemma rotT2_ok sT lo hi c sn q (T : arr) : (0 <= lo <= hi)%Z -> (hi <= sT)%Z -> (0 <= q)%Z -> (q + 1 < sT)%Z -> zlen T = (sT * sT)%Z ->
  wp (for_up lo hi (fun i T =>
             x <- rd T (i * sT + (q + 1)) ;; y <- rd T (i * sT + q) ;;
             let '(x', y') := applyGivens (N := N) c sn x y in
             T <- wr T (i * sT + (q + 1)) x' ;; wr T (i * sT + q) y') T) (fun T' => zlen T' = zlen T /\
    (forall i j, (0 <= i < sT)%Z -> (0 <= j < sT)%Z ->
       te sT T' i j = if ((lo <=? i) && (i <? hi))%Z then rot c sn q (te sT T i) j else te sT T i j)).
Proof.
  intros Hlo Hn Hp Hq LT.
  apply wp_for_up with (I := fun k T' => zlen T' = zlen T /\
    (forall i j, (0 <= i < sT)%Z -> (0 <= j < sT)%Z ->
       te sT T' i j = if ((lo <=? i) && (i <? k))%Z then rot c sn q (te sT T i) j else te sT T i j)); [lia| | |].
  - split; [reflexivity|]. intros i j Hi Hj. destruct (Z.leb_spec lo i), (Z.ltb_spec i lo); cbn [andb]; try lia; reflexivity.
  - intros k T' Hk (L1 & V1).
    assert (IT : forall j, (0 <= j < sT)%Z -> (0 <= k * sT + j < zlen T')%Z) by (intros; apply te_in; try lia; congruence).
    rcar. rewrite (rd_ok 0) by (apply IT; lia). cbn [bind]. rewrite (rd_ok 0) by (apply IT; lia). cbn [bind]. unfold applyGivens. rnum.
    rewrite wr_ok by (apply IT; lia). cbn [bind]. rewrite wr_ok by (rewrite zlen_zupd; apply IT; lia). apply wp_ok. rewrite !zlen_zupd. split; [exact L1|].
    assert (X : forall j, (0 <= j < sT)%Z -> zn 0 T' (k * sT + j) = te sT T k j).
    { intros j Hj. change (te sT T' k j = te sT T k j). rewrite V1 by lia. destruct (Z.ltb_spec k k); [lia|]. now rewrite andb_false_r. }
    rewrite !X by lia.
    intros i j Hi Hj. rewrite te_upd by (try lia; rewrite ?zlen_zupd; apply IT; lia). rewrite te_upd by (try lia; apply IT; lia). rewrite V1 by lia. unfold rot.
    destruct (Z.eqb_spec i k) as [->|].
    + destruct (Z.leb_spec lo k), (Z.ltb_spec k (k + 1)), (Z.ltb_spec k k); try lia. cbn [andb]. rewrite (Z.add_comm q 1).
      destruct (Z.eqb_spec j (1 + q)), (Z.eqb_spec j q); try lia; reflexivity.
    + cbn [andb]. destruct (Z.ltb_spec i k), (Z.ltb_spec i (k + 1)); try lia; reflexivity.
  - intros T' H. exact H.
Qed.

(** before the rotation with pivot row r: rows from r on have one entry too many *)
Record rrinv (n sT : Z) (l k' : list Z) (nfr nac nz : Z) (Am : Z -> Z -> R) (Q0 T0 : arr) (r : Z) (Q T : arr) : Prop := {
  rr_Q : zlen Q = zlen Q0;
  rr_T : zlen T = zlen T0;
  rr_orth : orth l nfr (ce n Q);
  rr_cols : forall v q, In v l -> (0 <= q < nz)%Z -> ce n Q v q = ce n Q0 v q;
  rr_A : forall i p, (0 <= i < nac - 1)%Z -> (0 <= p < nfr)%Z -> comb l (Am (zn 0%Z k' i)) (ce n Q) p =
     if ((if i <? r then nfr - 1 else nfr - 2) <=? i + p)%Z then te sT T i (sT - nfr + p) else 0;
  rr_diag : forall i, (0 <= i < nac - 1)%Z -> te sT T i (if (i <? r)%Z then sT - 1 - i else sT - 2 - i)%Z <> 0
}.

Lemma rrstep n FR l k' nfr nac nz sT Am (Q0 T0 : arr) j (Q T : arr) : zlen Q0 = (n * n)%Z -> NoDup l -> (forall v, In v l -> (0 <= v < n)%Z) ->
  nfr = zlen l -> (nfr <= n)%Z -> (nac <= sT)%Z -> (nfr - nac = nz)%Z -> (0 <= nz)%Z -> (forall k, (0 <= k < nfr)%Z -> rd FR k = Ok (zn 0%Z l k)) -> zlen T0 = (sT * sT)%Z ->
  (0 <= j <= nac - 2)%Z -> rrinv n sT l k' nfr nac nz Am Q0 T0 (nac - 2 - j) Q T ->
  wp (let r := (nac - 2 - j)%Z in
      x <- rd T (r * sT + (sT - nac + 1 + j)) ;; y <- rd T (r * sT + (sT - nac + j)) ;;
      let '(x', y', c, sn) := computeGivens (N := N) x y in
      T <- wr T (r * sT + (sT - nac + 1 + j)) x' ;; T <- wr T (r * sT + (sT - nac + j)) y' ;;
      T <- for_up (nac - j - 1) (nac - 1) (fun i T =>
             x <- rd T (i * sT + (sT - nac + 1 + j)) ;; y <- rd T (i * sT + (sT - nac + j)) ;;
             let '(x', y') := applyGivens (N := N) c sn x y in
             T <- wr T (i * sT + (sT - nac + 1 + j)) x' ;; wr T (i * sT + (sT - nac + j)) y') T ;;
      Q <- rotQ (N := N) n FR nfr c sn (nz + j) Q ;;
      Ok (Q, T)) (fun '(Q, T) => rrinv n sT l k' nfr nac nz Am Q0 T0 (nac - 1 - j) Q T).
Proof.
  intros LQ ND RG EL Ln SZ EZ Z0 RD LT Hj I. destruct I. cbv zeta. set (r := (nac - 2 - j)%Z) in *.
  assert (LT' : zlen T = (sT * sT)%Z) by exact (eq_trans rr_T0 LT).
  replace (sT - nac + 1 + j)%Z with (sT - nac + j + 1)%Z by lia. set (q := (sT - nac + j)%Z).
  assert (IT : forall c, (0 <= c < sT)%Z -> (0 <= r * sT + c < zlen T)%Z) by (intros; apply te_in; unfold r; try lia).
  rcar. rewrite (rd_ok 0) by (apply IT; unfold q; lia). cbn [bind]. rewrite (rd_ok 0) by (apply IT; unfold q; lia). cbn [bind].
  change (zn 0 T (r * sT + (q + 1))) with (te sT T r (q + 1)). change (zn 0 T (r * sT + q)) with (te sT T r q).
  assert (NY : te sT T r q <> 0).
  { specialize (rr_diag0 r ltac:(unfold r; lia)). destruct (Z.ltb_spec r r); [lia|]. replace q with (sT - 2 - r)%Z by (unfold q, r; lia). exact rr_diag0. }
  destruct (givens_exact (te sT T r (q + 1)) (te sT T r q)) as (c & sn & EG & CS & GZ & GN). rewrite EG. set (x' := c * te sT T r (q + 1) + sn * te sT T r q) in *.
  assert (NX : x' <> 0) by (intros Ex; rewrite Ex in GN; nra).
  rewrite (@wr_ok R) by (apply IT; unfold q; lia). cbn [bind]. rewrite (@wr_ok R) by (rewrite zlen_zupd; apply IT; unfold q; lia). cbn [bind].
  set (T1 := zupd (zupd T (r * sT + (q + 1)) x') (r * sT + q) 0).
  assert (LT1 : zlen T1 = (sT * sT)%Z) by (unfold T1; now rewrite !zlen_zupd).
  assert (V1 : forall i k, (0 <= i < sT)%Z -> (0 <= k < sT)%Z -> te sT T1 i k = if (i =? r)%Z then rot c sn q (te sT T r) k else te sT T i k).
  { intros i k Hi Hk. unfold T1. rewrite te_upd by (try lia; try (unfold q; lia); rewrite ?zlen_zupd; apply IT; unfold q; lia). rewrite te_upd by (try lia; try (unfold q; lia); apply IT; unfold q; lia).
    destruct (Z.eqb_spec i r) as [->|]; cbn [andb]; [|reflexivity]. unfold rot. rewrite (Z.add_comm 1 q). destruct (Z.eqb_spec k q) as [->|].
    - destruct (Z.eqb_spec q (q + 1)); [lia|]. lra.
    - reflexivity. }
  apply wp_bind. eapply wp_mono; [apply rotT2_ok; try (unfold q; lia); exact LT1|]. intros T2 (LT2 & V2). cbv beta.
  apply wp_bind. eapply wp_mono; [apply (rotQ_ok eps zero infty n FR l nfr c sn (nz + j) Q); auto; try lia; exact (eq_trans rr_Q0 LQ)|]. intros Q2 (LQ2 & VQ & _). cbv beta. apply wp_ok.
  assert (CB : forall b p, (0 <= p < n)%Z -> comb l b (ce n Q2) p = rot c sn (nz + j) (comb l b (ce n Q)) p).
  { intros b p Hp. rewrite <- comb_rot. apply comb_ext. intros v Hv. apply VQ; auto. }
  assert (VT : forall i k, (0 <= i < sT)%Z -> (0 <= k < sT)%Z -> te sT T2 i k = if ((r <=? i) && (i <? nac - 1))%Z then rot c sn q (te sT T i) k else te sT T i k).
  { intros i k Hi Hk. rewrite V2 by lia. destruct (Z.leb_spec (nac - j - 1) i), (Z.ltb_spec i (nac - 1)), (Z.leb_spec r i); try (unfold r in *; lia); cbn [andb].
    - apply rot_ext; rewrite V1 by (unfold q in *; lia); destruct (Z.eqb_spec i r); try (unfold r in *; lia); reflexivity.
    - rewrite V1 by lia. destruct (Z.eqb_spec i r); try (unfold r in *; lia); reflexivity.
    - rewrite V1 by lia. destruct (Z.eqb_spec i r) as [->|]; try (unfold r in *; lia); reflexivity.
    - rewrite V1 by lia. destruct (Z.eqb_spec i r); try (unfold r in *; lia); reflexivity. }
  constructor.
  - exact (eq_trans LQ2 rr_Q0).
  - exact (eq_trans LT2 (eq_trans LT1 (eq_sym LT))).
  - apply (orth_ext l nfr (fun v => rot c sn (nz + j) (ce n Q v))); [intros v p Hv Hp; apply VQ; auto; lia|]. apply orth_rot; auto; lia.
  - intros v p Hv Hp. rewrite VQ by (auto; lia). rewrite rot_ne by lia. auto.
  - intros i p Hi Hp. rewrite CB by lia.
    destruct (Z.ltb_spec i r) as [Lr|Lr].
    + (* rows above the pivot row vanish in both columns *)
      destruct (Z.ltb_spec i (nac - 1 - j)); [|unfold r in *; lia].
      assert (ZR : forall p', (p' = nz + j \/ p' = 1 + (nz + j))%Z -> comb l (Am (zn 0%Z k' i)) (ce n Q) p' = 0).
      { intros p' Hp'. rewrite rr_A0 by lia. destruct (Z.ltb_spec i r); [|lia]. destruct (Z.leb_spec (nfr - 1) (i + p')); [unfold r in *; lia|reflexivity]. }
      assert (E : rot c sn (nz + j) (comb l (Am (zn 0%Z k' i)) (ce n Q)) p = comb l (Am (zn 0%Z k' i)) (ce n Q) p).
      { unfold rot. destruct (Z.eqb_spec p (1 + (nz + j))) as [->|]; [rewrite !ZR by auto; ring|]. destruct (Z.eqb_spec p (nz + j)) as [->|]; [rewrite !ZR by auto; ring|reflexivity]. }
      rewrite E, rr_A0 by lia. destruct (Z.ltb_spec i r); [|lia]. destruct (Z.leb_spec (nfr - 1) (i + p)); [|reflexivity]. rewrite VT by lia. destruct (Z.leb_spec r i); [lia|reflexivity].
    + assert (AT : forall p', (0 <= p' < nfr)%Z -> (nz + j <= p')%Z -> comb l (Am (zn 0%Z k' i)) (ce n Q) p' = te sT T i (sT - nfr + p')).
      { intros p' H1 H2. rewrite rr_A0 by lia. destruct (Z.ltb_spec i r); [lia|]. destruct (Z.leb_spec (nfr - 2) (i + p')); [reflexivity|unfold r in *; lia]. }
      unfold rot. destruct (Z.eqb_spec p (1 + (nz + j))) as [->|N1]; [|destruct (Z.eqb_spec p (nz + j)) as [->|N2]].
      * rewrite !AT by lia. destruct (Z.leb_spec (if i <? nac - 1 - j then nfr - 1 else nfr - 2) (i + (1 + (nz + j)))); [|destruct (i <? nac - 1 - j)%Z; unfold r in *; lia].
        rewrite VT by lia. destruct (Z.leb_spec r i), (Z.ltb_spec i (nac - 1)); try lia. cbn [andb]. unfold rot.
        destruct (Z.eqb_spec (sT - nfr + (1 + (nz + j))) (1 + q)); [|unfold q in *; lia]. replace (sT - nfr + (nz + j))%Z with q by (unfold q; lia). now replace (sT - nfr + (1 + (nz + j)))%Z with (1 + q)%Z.
      * rewrite !AT by lia. replace (sT - nfr + (nz + j))%Z with q by (unfold q; lia). replace (sT - nfr + (1 + (nz + j)))%Z with (q + 1)%Z by (unfold q; lia).
        destruct (Z.ltb_spec i (nac - 1 - j)) as [Li|Li].
        -- assert (i = r) as -> by (unfold r in *; lia). destruct (Z.leb_spec (nfr - 1) (r + (nz + j))); [unfold r in *; lia|]. exact GZ.
        -- destruct (Z.leb_spec (nfr - 2) (i + (nz + j))); [|unfold r in *; lia]. rewrite VT by (unfold q; lia). destruct (Z.leb_spec r i), (Z.ltb_spec i (nac - 1)); try lia. cbn [andb]. unfold rot.
           destruct (Z.eqb_spec q (1 + q)); [lia|]. rewrite Z.eqb_refl. now rewrite (Z.add_comm 1 q).
      * rewrite rr_A0 by lia. destruct (Z.ltb_spec i r); [lia|].
        destruct (Z.leb_spec (nfr - 2) (i + p)), (Z.leb_spec (if i <? nac - 1 - j then nfr - 1 else nfr - 2) (i + p)) as [Lc|Lc]; destruct (Z.ltb_spec i (nac - 1 - j)); try (unfold r in *; lia); try reflexivity.
        -- rewrite VT by lia. destruct (Z.leb_spec r i), (Z.ltb_spec i (nac - 1)); try lia. cbn [andb]. rewrite rot_ne by (unfold q; lia). reflexivity.
        -- rewrite VT by lia. destruct (Z.leb_spec r i), (Z.ltb_spec i (nac - 1)); try lia. cbn [andb]. rewrite rot_ne by (unfold q; lia). reflexivity.
  - intros i Hi. specialize (rr_diag0 i Hi). destruct (Z.ltb_spec i r) as [Lr|Lr].
    + destruct (Z.ltb_spec i (nac - 1 - j)); [|unfold r in *; lia]. rewrite VT by lia. destruct (Z.leb_spec r i); [lia|exact rr_diag0].
    + destruct (Z.ltb_spec i (nac - 1 - j)).
      * assert (i = r) as -> by (unfold r in *; lia). rewrite VT by lia. destruct (Z.leb_spec r r), (Z.ltb_spec r (nac - 1)); try (unfold r in *; lia). cbn [andb].
        replace (sT - 1 - r)%Z with (1 + q)%Z by (unfold q, r; lia). rewrite rot_hi. now rewrite (Z.add_comm 1 q).
      * rewrite VT by lia. destruct (Z.leb_spec r i), (Z.ltb_spec i (nac - 1)); try lia. cbn [andb]. rewrite rot_ne by (unfold q, r in *; lia). exact rr_diag0.
Qed.
Lemma shiftT_ok sT nac k (T : arr) : (0 <= k < nac)%Z -> (nac <= sT)%Z -> zlen T = (sT * sT)%Z ->
  wp (for_up (k + 1) nac (fun i T =>
           for_up (nac - i - 1) nac (fun j T => v <- rd T (i * sT + (sT - nac + j)) ;; wr T ((i - 1) * sT + (sT - nac + j)) v) T) T) (fun T' => zlen T' = zlen T /\
    (forall r c, (0 <= r < sT)%Z -> (0 <= c < sT)%Z -> te sT T' r c = if ((k <=? r) && (r <? nac - 1) && (sT - 2 - r <=? c))%Z then te sT T (r + 1) c else te sT T r c)).
Proof.
  intros Hk Hs LT.
  apply wp_for_up with (I := fun i T' => zlen T' = zlen T /\
    (forall r c, (0 <= r < sT)%Z -> (0 <= c < sT)%Z -> te sT T' r c = if ((k <=? r) && (r <? i - 1) && (sT - 2 - r <=? c))%Z then te sT T (r + 1) c else te sT T r c)); [lia| | |].
  - split; [reflexivity|]. intros r c Hr Hc. destruct (Z.leb_spec k r), (Z.ltb_spec r (k + 1 - 1)); try lia; reflexivity.
  - intros i T1 Hi (L1 & V1).
    apply wp_for_up with (I := fun j T' => zlen T' = zlen T /\
      (forall r c, (0 <= r < sT)%Z -> (0 <= c < sT)%Z -> te sT T' r c = if ((r =? i - 1) && (sT - 1 - i <=? c) && (c <? sT - nac + j))%Z then te sT T i c else te sT T1 r c)); [lia| | |].
    + split; [exact L1|]. intros r c Hr Hc. destruct (Z.leb_spec (sT - 1 - i) c), (Z.ltb_spec c (sT - nac + (nac - i - 1))); try lia; now rewrite ?andb_false_r.
    + intros j T2 Hj (L2 & V2).
      assert (IT : forall r c, (0 <= r < sT)%Z -> (0 <= c < sT)%Z -> (0 <= r * sT + c < zlen T2)%Z) by (intros; apply te_in; try lia; congruence).
      rcar. rewrite (rd_ok 0) by (apply IT; lia). cbn [bind]. rewrite wr_ok by (apply IT; lia). apply wp_ok. rewrite zlen_zupd. split; [exact L2|].
      assert (X : zn 0 T2 (i * sT + (sT - nac + j)) = te sT T i (sT - nac + j)).
      { change (te sT T2 i (sT - nac + j) = te sT T i (sT - nac + j)). rewrite V2 by lia. destruct (Z.eqb_spec i (i - 1)); [lia|]. cbn [andb]. rewrite V1 by lia.
        destruct (Z.ltb_spec i (i - 1)); [lia|]. now rewrite andb_false_r. }
      rewrite X. intros r c Hr Hc. rewrite te_upd by (try lia; apply IT; lia). rewrite V2 by lia.
      destruct (Z.eqb_spec r (i - 1)) as [->|]; cbn [andb]; [|reflexivity].
      destruct (Z.eqb_spec c (sT - nac + j)) as [->|].
      * destruct (Z.leb_spec (sT - 1 - i) (sT - nac + j)), (Z.ltb_spec (sT - nac + j) (sT - nac + (j + 1))); try lia. reflexivity.
      * destruct (Z.ltb_spec c (sT - nac + j)), (Z.ltb_spec c (sT - nac + (j + 1))); try lia; reflexivity.
    + intros T2 (L2 & V2). split; [exact L2|]. intros r c Hr Hc. rewrite V2 by lia. rewrite V1 by lia.
      destruct (Z.eqb_spec r (i - 1)) as [->|Nr].
      * destruct (Z.ltb_spec (i - 1) (i - 1)), (Z.ltb_spec (i - 1) (i + 1 - 1)), (Z.leb_spec k (i - 1)), (Z.leb_spec (sT - 1 - i) c), (Z.ltb_spec c (sT - nac + nac)), (Z.leb_spec (sT - 2 - (i - 1)) c); try lia; cbn [andb]; try reflexivity.
        now replace (i - 1 + 1)%Z with i by lia.
      * cbn [andb]. destruct (Z.ltb_spec r (i - 1)), (Z.ltb_spec r (i + 1 - 1)); try lia; reflexivity.
  - intros T' H. exact H.
Qed.

Lemma clearrow_ok sT nac (T : arr) : (0 < nac <= sT)%Z -> zlen T = (sT * sT)%Z ->
  wp (for_up 0 nac (fun j T => wr T ((nac - 1) * sT + (sT - nac + j)) (n0 (N := N))) T) (fun T' => zlen T' = zlen T /\
    (forall r c, (0 <= r < nac - 1)%Z -> (0 <= c < sT)%Z -> te sT T' r c = te sT T r c)).
Proof.
  intros Hn LT. apply wp_for_up with (I := fun _ T' => zlen T' = zlen T /\ (forall r c, (0 <= r < nac - 1)%Z -> (0 <= c < sT)%Z -> te sT T' r c = te sT T r c)); [lia|auto| |auto].
  intros j T1 Hj (L1 & V1).
  assert (IT : forall r c, (0 <= r < sT)%Z -> (0 <= c < sT)%Z -> (0 <= r * sT + c < zlen T1)%Z) by (intros; apply te_in; try lia; congruence).
  rcar. rewrite wr_ok by (apply IT; lia). apply wp_ok. rewrite zlen_zupd. split; [exact L1|]. intros r c Hr Hc. rewrite te_upd by (try lia; apply IT; lia).
  destruct (Z.eqb_spec r (nac - 1)); [lia|]. cbn [andb]. auto.
Qed.

Lemma removeRowT_ok n FR l k1 k' number nfr nac nz sT k Am (Q T : arr) : zlen Q = (n * n)%Z -> NoDup l -> (forall v, In v l -> (0 <= v < n)%Z) ->
  nfr = zlen l -> (nfr <= n)%Z -> nac = zlen k1 -> (nac <= sT)%Z -> (nfr - nac = nz)%Z -> (forall k, (0 <= k < nfr)%Z -> rd FR k = Ok (zn 0%Z l k)) -> zlen T = (sT * sT)%Z ->
  In number k1 -> k = spec_pos k1 number -> k' = spec_remove k1 number -> tqf n sT l k1 Am Q T ->
  wp (removeRowT (N := N) n FR nfr nac nz sT k Q T) (fun '(Q', T') => zlen Q' = zlen Q /\ zlen T' = zlen T /\ tqf n sT l k' Am Q' T' /\
     (forall v q, In v l -> (0 <= q < nz)%Z -> ce n Q' v q = ce n Q v q)).
Proof.
  intros LQ ND RG EL Ln EN SZ EZ RD LT Hin Ek Ek' (LE & OQ & TQ & TD). rewrite <- EL in *. rewrite <- EN in *.
  assert (Hk : (0 <= k < nac)%Z) by (rewrite Ek, EN; pose proof (spec_pos_range k1 number); pose proof (proj2 (spec_pos_nonneg_In k1 number) Hin); lia).
  assert (LK : zlen k' = (nac - 1)%Z) by (rewrite Ek', EN; now apply spec_remove_len).
  assert (VK : forall i, (0 <= i < nac - 1)%Z -> zn 0%Z k' i = zn 0%Z k1 (if (i <? k)%Z then i else i + 1)%Z).
  { intros i Hi. rewrite Ek', Ek. rewrite spec_remove_zz by (try lia; auto). now destruct (i <? spec_pos k1 number)%Z. }
  assert (FIN : forall Q' T', rrinv n sT l k' nfr nac nz Am Q T (nac - 1) Q' T' -> zlen Q' = zlen Q /\ zlen T' = zlen T /\ tqf n sT l k' Am Q' T' /\
     (forall v q, In v l -> (0 <= q < nz)%Z -> ce n Q' v q = ce n Q v q)).
  { intros Q' T' I. destruct I. split; [exact rr_Q0|]. split; [exact rr_T0|]. split; [|exact rr_cols0]. unfold tqf. rewrite LK, <- EL. split; [lia|]. split; [exact rr_orth0|]. split.
    - intros i p Hi Hp. rewrite rr_A0 by lia. destruct (Z.ltb_spec i (nac - 1)); [reflexivity|lia].
    - intros i Hi. specialize (rr_diag0 i Hi). destruct (Z.ltb_spec i (nac - 1)); [exact rr_diag0|lia]. }
  assert (INI : forall T', zlen T' = zlen T -> (forall r c, (0 <= r < nac - 1)%Z -> (0 <= c < sT)%Z -> te sT T' r c = if ((k <=? r) && (sT - 2 - r <=? c))%Z then te sT T (r + 1) c else te sT T r c) ->
      rrinv n sT l k' nfr nac nz Am Q T k Q T').
  { intros T' L' V'. constructor; auto.
    - intros i p Hi Hp. rewrite VK by lia. destruct (Z.ltb_spec i k).
      + rewrite TQ by lia. destruct (Z.leb_spec (nfr - 1) (i + p)); [|reflexivity]. rewrite V' by lia. destruct (Z.leb_spec k i); [lia|reflexivity].
      + rewrite TQ by lia. destruct (Z.leb_spec (nfr - 1) (i + 1 + p)), (Z.leb_spec (nfr - 2) (i + p)); try lia; [|reflexivity]. rewrite V' by lia.
        destruct (Z.leb_spec k i), (Z.leb_spec (sT - 2 - i) (sT - nfr + p)); try lia. reflexivity.
    - intros i Hi. destruct (Z.ltb_spec i k).
      + rewrite V' by lia. destruct (Z.leb_spec k i); [lia|]. cbn [andb]. apply TD. lia.
      + rewrite V' by lia. destruct (Z.leb_spec k i), (Z.leb_spec (sT - 2 - i) (sT - 2 - i)); try lia. cbn [andb]. replace (sT - 2 - i)%Z with (sT - 1 - (i + 1))%Z by lia. apply TD. lia. }
  unfold removeRowT. destruct (Z.ltb_spec k (nac - 1)) as [Lk|Lk].
  - apply wp_bind. eapply wp_mono; [apply shiftT_ok; auto|]. intros T1 (L1 & V1). cbv beta.
    apply wp_bind. eapply wp_mono; [apply clearrow_ok; [lia|exact (eq_trans L1 LT)]|]. intros T2 (L2 & V2). cbv beta.
    assert (I0 : rrinv n sT l k' nfr nac nz Am Q T k Q T2).
    { apply INI; [exact (eq_trans L2 L1)|]. intros r c Hr Hc. rewrite V2, V1 by lia. destruct (Z.ltb_spec r (nac - 1)); [|lia]. now rewrite andb_true_r. }
    apply wp_for_dn with (I := fun j '(Q', T') => rrinv n sT l k' nfr nac nz Am Q T (nac - 2 - j) Q' T'); [lia| | |].
    + replace (nac - 2 - (nac - 2 - k))%Z with k by lia. exact I0.
    + intros j [Q' T'] Hj I. replace (nac - 2 - (j - 1))%Z with (nac - 1 - j)%Z by lia. apply (rrstep n FR l k' nfr nac nz sT Am Q T j Q' T'); auto; lia.
    + intros [Q' T'] I. apply FIN. replace (nac - 1)%Z with (nac - 2 - -1)%Z by lia. exact I.
  - apply wp_bind. eapply wp_mono; [apply clearrow_ok; [lia|exact LT]|]. intros T2 (L2 & V2). cbv beta. apply wp_ok. apply FIN. replace (nac - 1)%Z with k by lia.
    apply INI; [exact L2|]. intros r c Hr Hc. rewrite V2 by lia. destruct (Z.leb_spec k r); [lia|reflexivity].
Qed.
End X7.
