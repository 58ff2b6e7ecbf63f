(** Removing a bound keeps the TQ factorisation exact. *)
From Verif Require Import Base Types Num Options Indexlist IndexlistProofs Loops RSum LinSpec SafeLib SubjectTo SubjectToProofs SubjectToProofs2
  Flipper PropFlipper Matrices MatLib MatSafe LinAlg PropLinAlg QProblemB QPBSafe QPBSafe2 QPBX1 QPBX2 QPBX3 QPBX4 QProblem QPX1 QPX2 QPX3 QPX4 QPX5 QPX7 QPX8.
Local Open Scope R_scope.

Section X10.
Variables eps zero infty : R.
Notation N := (RNumT eps zero infty).
Notation arr := (list R).
Hypothesis zero_0 : zero = 0.
Variable junk : Z -> arr.
Hypothesis J : junk_ok (N := N) junk.

(** column p of T and the extra column, rows lo..hi-1 *)
Lemma rotT_in sT lo hi c sn p (T tmp : arr) : (0 <= lo <= hi)%Z -> (hi <= sT)%Z -> (0 <= p < sT)%Z -> zlen T = (sT * sT)%Z -> (hi <= zlen tmp)%Z ->
  wp (for_up lo hi (fun i '(tmp, T) =>
          x <- rd tmp i ;; y <- rd T (i * sT + p) ;;
          let '(x', y') := applyGivens (N := N) c sn x y in
          T <- wr T (i * sT + p) x' ;; tmp <- wr tmp i y' ;; Ok (tmp, T)) (tmp, T))
   (fun '(tmp', T') => zlen T' = zlen T /\ zlen tmp' = zlen tmp /\
    (forall i j, (0 <= i < sT)%Z -> (0 <= j < sT)%Z ->
       te sT T' i j = if ((lo <=? i) && (i <? hi) && (j =? p))%Z then c * zn 0 tmp i + sn * te sT T i p else te sT T i j) /\
    (forall i, (0 <= i)%Z -> zn 0 tmp' i = if ((lo <=? i) && (i <? hi))%Z then - sn * zn 0 tmp i + c * te sT T i p else zn 0 tmp i)).
Proof.
  intros Hlo Hn Hp LT Lt.
  apply wp_for_up with (I := fun k '(tmp', T') => zlen T' = zlen T /\ zlen tmp' = zlen tmp /\
    (forall i j, (0 <= i < sT)%Z -> (0 <= j < sT)%Z ->
       te sT T' i j = if ((lo <=? i) && (i <? k) && (j =? p))%Z then c * zn 0 tmp i + sn * te sT T i p else te sT T i j) /\
    (forall i, (0 <= i)%Z -> zn 0 tmp' i = if ((lo <=? i) && (i <? k))%Z then - sn * zn 0 tmp i + c * te sT T i p else zn 0 tmp i)); [lia| | |].
  - split; [reflexivity|]. split; [reflexivity|]. split.
    + intros i j Hi Hj. destruct (Z.leb_spec lo i), (Z.ltb_spec i lo); cbn [andb]; try lia; reflexivity.
    + intros i Hi. destruct (Z.leb_spec lo i), (Z.ltb_spec i lo); cbn [andb]; try lia; reflexivity.
  - intros k [tmp' T'] Hk (L1 & L2 & V1 & V2).
    assert (IT : forall j, (0 <= j < sT)%Z -> (0 <= k * sT + j < zlen T')%Z) by (intros; apply te_in; try lia; congruence).
    rcar. rewrite (rd_ok 0) by lia. cbn [bind]. rewrite (rd_ok 0) by (apply IT; lia). cbn [bind]. unfold applyGivens. rnum.
    rewrite wr_ok by (apply IT; lia). cbn [bind]. rewrite wr_ok by lia. cbn [bind]. apply wp_ok. rewrite !zlen_zupd. split; [exact L1|]. split; [exact L2|].
    assert (X : zn 0 T' (k * sT + p) = te sT T k p).
    { change (te sT T' k p = te sT T k p). rewrite V1 by lia. destruct (Z.ltb_spec k k); [lia|]. now rewrite andb_false_r. }
    assert (Y : zn 0 tmp' k = zn 0 tmp k). { rewrite V2 by lia. destruct (Z.ltb_spec k k); [lia|]. now rewrite andb_false_r. }
    rewrite X, Y. split.
    + intros i j Hi Hj. rewrite te_upd by (try lia; apply IT; lia). rewrite V1 by lia.
      destruct (Z.eqb_spec i k) as [->|], (Z.eqb_spec j p) as [->|], (Z.leb_spec lo k), (Z.ltb_spec k (k + 1)); cbn [andb]; rewrite ?andb_false_r, ?andb_true_r; try lia; try reflexivity.
      destruct (Z.ltb_spec i k), (Z.ltb_spec i (k + 1)); try lia; reflexivity.
    + intros i Hi. rewrite zn_zupd by lia. rewrite V2 by lia. destruct (Z.eqb_spec i k) as [->|].
      * destruct (Z.leb_spec lo k), (Z.ltb_spec k (k + 1)); try lia; reflexivity.
      * destruct (Z.ltb_spec i k), (Z.ltb_spec i (k + 1)); try lia; reflexivity.
  - intros [tmp' T'] H. exact H.
Qed.

(** before the rotation of columns nz+j and nz+j+1 *)
Record apinv (n sT : Z) (l k : list Z) (nfr nac nz : Z) (Am : Z -> Z -> R) (Q0 T0 : arr) (j : Z) (Q T tmp : arr) : Prop := {
  ap_Q : zlen Q = zlen Q0;
  ap_T : zlen T = zlen T0;
  ap_t : zlen tmp = nac;
  ap_orth : orth l (nfr + 1) (ce n Q);
  ap_cols : forall v q, In v l -> (0 <= q < nz)%Z -> ce n Q v q = ce n Q0 v q;
  ap_A : forall i p, (0 <= i < nac)%Z -> (0 <= p < nfr + 1)%Z -> comb l (Am (zn 0%Z k i)) (ce n Q) p =
     if (nz + j + 1 <? p)%Z then (if (nfr <=? i + p)%Z then te sT T i (sT - nfr - 1 + p) else 0)
     else if (p =? nz + j + 1)%Z then zn 0 tmp i
     else (if (nfr - 1 <=? i + p)%Z then te sT T i (sT - nfr + p) else 0);
  ap_tmp : forall i, (0 <= i < nac)%Z -> (i < nac - 1 - j)%Z -> zn 0 tmp i = 0;
  ap_diag : forall i, (0 <= i < nac)%Z -> te sT T i (sT - 1 - i) <> 0
}.

Lemma apstep n FR l k nfr nac nz sT Am (Q0 T0 : arr) j (Q T tmp : arr) : zlen Q0 = (n * n)%Z -> NoDup l -> (forall v, In v l -> (0 <= v < n)%Z) ->
  (nfr + 1)%Z = zlen l -> (nfr + 1 <= n)%Z -> (nac <= sT)%Z -> (nfr - nac = nz)%Z -> (0 <= nz)%Z -> (forall k, (0 <= k < nfr + 1)%Z -> rd FR k = Ok (zn 0%Z l k)) -> zlen T0 = (sT * sT)%Z ->
  (0 <= j <= nac - 1)%Z -> apinv n sT l k nfr nac nz Am Q0 T0 j Q T tmp ->
  wp (let r := (nac - 1 - j)%Z in
      x <- rd tmp r ;; y <- rd T (r * sT + (sT - nac + j)) ;;
      let '(x', y', c, sn) := computeGivens (N := N) x y in
      T <- wr T (r * sT + (sT - nac + j)) x' ;; tmp <- wr tmp r y' ;;
      '(tmp, T) <- for_up (nac - j) nac (fun i '(tmp, T) =>
          x <- rd tmp i ;; y <- rd T (i * sT + (sT - nac + j)) ;;
          let '(x', y') := applyGivens (N := N) c sn x y in
          T <- wr T (i * sT + (sT - nac + j)) x' ;; tmp <- wr tmp i y' ;; Ok (tmp, T)) (tmp, T) ;;
      Q <- rotQ (N := N) n FR (nfr + 1) c sn (nz + j) Q ;;
      Ok (tmp, Q, T)) (fun '(tmp, Q, T) => apinv n sT l k nfr nac nz Am Q0 T0 (j - 1) Q T tmp).
Proof.
  intros LQ ND RG EL Ln SZ EZ Z0 RD LT Hj I. destruct I. cbv zeta. set (r := (nac - 1 - j)%Z) in *. set (q := (sT - nac + j)%Z).
  assert (LT' : zlen T = (sT * sT)%Z) by exact (eq_trans ap_T0 LT).
  assert (IT : forall c, (0 <= c < sT)%Z -> (0 <= r * sT + c < zlen T)%Z) by (intros; apply te_in; unfold r; try lia).
  assert (Hr : (0 <= r < nac)%Z) by (unfold r; lia). assert (Hq : (0 <= q < sT)%Z) by (unfold q; lia).
  rcar. rewrite (rd_ok 0) by lia. cbn [bind]. rewrite (rd_ok 0) by (apply IT; lia). cbn [bind]. change (zn 0 T (r * sT + q)) with (te sT T r q).
  assert (NY : te sT T r q <> 0) by (replace q with (sT - 1 - r)%Z by (unfold q, r; lia); apply ap_diag0; lia).
  destruct (givens_exact eps zero infty zero_0 (zn 0 tmp r) (te sT T r q)) as (c & sn & EG & CS & GZ & GN). rewrite EG. set (x' := c * zn 0 tmp r + sn * te sT T r q) in *.
  assert (NX : x' <> 0) by (intros Ex; rewrite Ex in GN; nra).
  rewrite (@wr_ok R) by (apply IT; lia). cbn [bind]. rewrite (@wr_ok R) by lia. cbn [bind].
  set (T1 := zupd T (r * sT + q) x'). set (tmp1 := zupd tmp r 0).
  assert (LT1 : zlen T1 = (sT * sT)%Z) by (unfold T1; now rewrite zlen_zupd).
  apply wp_bind. eapply wp_mono; [apply (rotT_in sT (nac - j) nac c sn q T1 tmp1); try lia; unfold tmp1; rewrite zlen_zupd; lia|]. intros [tmp2 T2] (LT2 & Lt2 & VT0 & Vt0). cbv beta iota.
  apply wp_bind. eapply wp_mono; [apply (rotQ_ok eps zero infty n FR l (nfr + 1) c sn (nz + j) Q); auto; try lia; exact (eq_trans ap_Q0 LQ)|]. intros Q2 (LQ2 & VQ & _). cbv beta. apply wp_ok.
  assert (V1 : forall i k, (0 <= i < sT)%Z -> (0 <= k < sT)%Z -> te sT T1 i k = if ((i =? r) && (k =? q))%Z then x' else te sT T i k).
  { intros i k' Hi Hk. unfold T1. apply te_upd; try lia; apply IT; lia. }
  assert (Vt1 : forall i, (0 <= i)%Z -> zn 0 tmp1 i = if (i =? r)%Z then 0 else zn 0 tmp i) by (intros i Hi; unfold tmp1; rewrite zn_zupd by lia; reflexivity).
  assert (VT : forall i k, (0 <= i < nac)%Z -> (0 <= k < sT)%Z -> te sT T2 i k = if ((r <=? i) && (k =? q))%Z then c * zn 0 tmp i + sn * te sT T i q else te sT T i k).
  { intros i k' Hi Hk. rewrite VT0 by lia. rewrite !V1, Vt1 by lia. destruct (Z.leb_spec (nac - j) i), (Z.ltb_spec i nac), (Z.leb_spec r i), (Z.eqb_spec k' q) as [->|], (Z.eqb_spec i r) as [->|]; try (unfold r in *; lia); cbn [andb]; try reflexivity. }
  assert (Vt : forall i, (0 <= i < nac)%Z -> zn 0 tmp2 i = if (r <=? i)%Z then - sn * zn 0 tmp i + c * te sT T i q else zn 0 tmp i).
  { intros i Hi. rewrite Vt0 by lia. rewrite !V1, Vt1 by lia. destruct (Z.leb_spec (nac - j) i), (Z.ltb_spec i nac), (Z.leb_spec r i), (Z.eqb_spec i r) as [->|]; try (unfold r in *; lia); cbn [andb]; try reflexivity. symmetry. exact GZ. }
  clear VT0 Vt0 V1 Vt1.
  assert (CB : forall b p, (0 <= p < n)%Z -> comb l b (ce n Q2) p = rot c sn (nz + j) (comb l b (ce n Q)) p).
  { intros b p Hp. rewrite <- comb_rot. apply comb_ext. intros v Hv. apply VQ; auto. }
  constructor.
  - exact (eq_trans LQ2 ap_Q0).
  - exact (eq_trans LT2 (eq_trans LT1 (eq_sym LT))).
  - apply (eq_trans Lt2). unfold tmp1. now rewrite zlen_zupd.
  - apply (orth_ext l (nfr + 1) (fun v => rot c sn (nz + j) (ce n Q v))); [intros v p Hv Hp; apply VQ; auto; lia|]. apply orth_rot; auto; lia.
  - intros v p Hv Hp. rewrite VQ by (auto; lia). rewrite rot_ne by lia. auto.
  - intros i p Hi Hp. rewrite CB by lia.
    assert (CH : comb l (Am (zn 0%Z k i)) (ce n Q) (1 + (nz + j)) = zn 0 tmp i).
    { rewrite ap_A0 by lia. destruct (Z.ltb_spec (nz + j + 1) (1 + (nz + j))), (Z.eqb_spec (1 + (nz + j)) (nz + j + 1)); try lia. reflexivity. }
    assert (CL : comb l (Am (zn 0%Z k i)) (ce n Q) (nz + j) = if (r <=? i)%Z then te sT T i q else 0).
    { rewrite ap_A0 by lia. destruct (Z.ltb_spec (nz + j + 1) (nz + j)), (Z.eqb_spec (nz + j) (nz + j + 1)); try lia.
      destruct (Z.leb_spec (nfr - 1) (i + (nz + j))), (Z.leb_spec r i); try (unfold r in *; lia); [|reflexivity]. f_equal. unfold q. lia. }
    unfold rot. rewrite CH, CL. destruct (Z.eqb_spec p (1 + (nz + j))) as [->|N1]; [|destruct (Z.eqb_spec p (nz + j)) as [->|N2]].
    + destruct (Z.ltb_spec (nz + (j - 1) + 1) (1 + (nz + j))); [|lia]. destruct (Z.leb_spec r i).
      * destruct (Z.leb_spec nfr (i + (1 + (nz + j)))); [|unfold r in *; lia]. rewrite VT by lia. destruct (Z.leb_spec r i); [|lia]. destruct (Z.eqb_spec (sT - nfr - 1 + (1 + (nz + j))) q); [reflexivity|unfold q in *; lia].
      * destruct (Z.leb_spec nfr (i + (1 + (nz + j)))); [unfold r in *; lia|]. rewrite ap_tmp0 by (unfold r in *; lia). ring.
    + destruct (Z.ltb_spec (nz + (j - 1) + 1) (nz + j)); [lia|]. destruct (Z.eqb_spec (nz + j) (nz + (j - 1) + 1)); [|lia]. rewrite Vt by lia.
      destruct (Z.leb_spec r i); [reflexivity|]. rewrite ap_tmp0 by (unfold r in *; lia). ring.
    + rewrite ap_A0 by lia. destruct (Z.ltb_spec (nz + j + 1) p), (Z.ltb_spec (nz + (j - 1) + 1) p), (Z.eqb_spec p (nz + j + 1)), (Z.eqb_spec p (nz + (j - 1) + 1)); try lia.
      * destruct (Z.leb_spec nfr (i + p)); [|reflexivity]. rewrite VT by lia. destruct (Z.eqb_spec (sT - nfr - 1 + p) q); [unfold q in *; lia|]. now rewrite andb_false_r.
      * destruct (Z.leb_spec (nfr - 1) (i + p)); [|reflexivity]. rewrite VT by lia. destruct (Z.eqb_spec (sT - nfr + p) q); [unfold q in *; lia|]. now rewrite andb_false_r.
  - intros i Hi Hij. rewrite Vt by lia. destruct (Z.leb_spec r i); [|apply ap_tmp0; unfold r in *; lia]. assert (i = r) as -> by (unfold r in *; lia). exact GZ.
  - intros i Hi. rewrite VT by lia. destruct (Z.leb_spec r i), (Z.eqb_spec (sT - 1 - i) q); cbn [andb]; try (apply ap_diag0; lia). assert (i = r) as -> by (unfold q, r in *; lia). exact NX.
Qed.

Lemma appendColT_ok n FR l k nfr nac nz sT Am (acol Q T : arr) : zlen Q = (n * n)%Z -> NoDup l -> (forall v, In v l -> (0 <= v < n)%Z) ->
  (nfr + 1)%Z = zlen l -> (nfr + 1 <= n)%Z -> nac = zlen k -> (nac <= sT)%Z -> (nfr - nac = nz)%Z -> (0 <= nz)%Z -> (forall k, (0 <= k < nfr + 1)%Z -> rd FR k = Ok (zn 0%Z l k)) -> zlen T = (sT * sT)%Z ->
  zlen acol = nac -> orth l (nfr + 1) (ce n Q) ->
  (forall i p, (0 <= i < nac)%Z -> (0 <= p < nfr)%Z -> comb l (Am (zn 0%Z k i)) (ce n Q) p = if (nfr - 1 <=? i + p)%Z then te sT T i (sT - nfr + p) else 0) ->
  (forall i, (0 <= i < nac)%Z -> comb l (Am (zn 0%Z k i)) (ce n Q) nfr = zn 0 acol i) ->
  (forall i, (0 <= i < nac)%Z -> te sT T i (sT - 1 - i) <> 0) ->
  wp (appendColT (N := N) n FR nfr nac nz sT acol Q T) (fun '(Q', T') => zlen Q' = zlen Q /\ zlen T' = zlen T /\ tqf n sT l k Am Q' T' /\
     (forall v q, In v l -> (0 <= q < nz)%Z -> ce n Q' v q = ce n Q v q)).
Proof.
  intros LQ ND RG EL Ln EN SZ EZ Z0 RD LT Lc OQ TQ TL TD. unfold appendColT. pose proof (zlen_nonneg k).
  apply wp_bind. apply wp_for_dn with (I := fun j '(tmp, Q', T') => apinv n sT l k nfr nac nz Am Q T j Q' T' tmp); [lia| | |].
  - constructor; auto; try (intros; lia).
    intros i p Hi Hp. destruct (Z.ltb_spec (nz + (nac - 1) + 1) p); [lia|]. destruct (Z.eqb_spec p (nz + (nac - 1) + 1)) as [->|].
    + replace (nz + (nac - 1) + 1)%Z with nfr by lia. auto.
    + apply TQ; lia.
  - intros j [[tmp Q'] T'] Hj I. apply (apstep n FR l k nfr nac nz sT Am Q T j Q' T' tmp); auto; lia.
  - intros [[tmp Q'] T'] I. destruct I. apply wp_ok. split; [exact ap_Q0|]. split; [exact ap_T0|]. split; [|exact ap_cols0].
    unfold tqf. rewrite <- EL, <- EN. split; [lia|]. split; [exact ap_orth0|]. split; [|exact ap_diag0].
    intros i p Hi Hp. rewrite ap_A0 by lia. replace (nfr + 1 - 1)%Z with nfr by lia. replace (sT - (nfr + 1) + p)%Z with (sT - nfr - 1 + p)%Z by lia.
    destruct (Z.ltb_spec (nz + -1 + 1) p); [reflexivity|]. destruct (Z.leb_spec nfr (i + p)); [lia|]. destruct (Z.eqb_spec p (nz + -1 + 1)).
    + apply ap_tmp0; lia.
    + destruct (Z.leb_spec (nfr - 1) (i + p)); [lia|reflexivity].
Qed.
End X10.
