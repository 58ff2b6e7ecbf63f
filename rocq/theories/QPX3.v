(** The rotations within the null space basis and the restoration of R. *)
From Verif Require Import Base Types Num Options Indexlist IndexlistProofs Loops RSum LinSpec SafeLib SubjectTo SubjectToProofs SubjectToProofs2
  Flipper PropFlipper Matrices MatLib MatSafe LinAlg PropLinAlg QProblemB QPBSafe QPBX1 QPBX2 QPBX3 QProblem QPX1 QPX2.
Local Open Scope R_scope.

Section X3.
Variables eps zero infty : R.
Notation N := (RNumT eps zero infty).
Notation arr := (list R).
Hypothesis zero_nn : 0 <= zero.

(** R while its first j columns have one entry below the diagonal *)
Definition hes (n j : Z) (Ra : arr) (i p : Z) : R := if (i <=? (if p <? j then p + 1 else p))%Z then ce n Ra i p else 0.

Record zinv (n : Z) (l : list Z) (nfr nz : Z) (upd : bool) (M : Z -> Z -> R) (a : Z -> R) (w0 Q0 R0 : arr) (j : Z) (w Q Ra : arr) : Prop := {
  zi_w : zlen w = zlen w0;
  zi_Q : zlen Q = zlen Q0;
  zi_R : zlen Ra = zlen R0;
  zi_orth : orth l nfr (ce n Q);
  zi_cols : forall v q, In v l -> (nz <= q < n)%Z -> ce n Q v q = ce n Q0 v q;
  zi_rows : forall v q, (0 <= v < n)%Z -> ~ In v l -> (0 <= q < n)%Z -> ce n Q v q = ce n Q0 v q;
  zi_ker : forall b, (forall q, (0 <= q < nz)%Z -> comb l b (ce n Q0) q = 0) -> forall q, (0 <= q < nz)%Z -> comb l b (ce n Q) q = 0;
  zi_wa : forall q, (0 <= q < nz)%Z -> zn 0 w q = comb l a (ce n Q) q;
  zi_wb : forall q, (nz <= q)%Z -> zn 0 w q = zn 0 w0 q;
  zi_zero : zero = 0 -> forall q, (0 <= q < j)%Z -> zn 0 w q = 0;
  zi_norm : rsum 0 nz (fun q => zn 0 w q * zn 0 w q) = rsum 0 nz (fun q => zn 0 w0 q * zn 0 w0 q);
  zi_pd : posdef nz (zhz l M (ce n Q0)) -> posdef nz (zhz l M (ce n Q));
  zi_same : upd = false -> Ra = R0;
  zi_gram : upd = true -> gram nz (hes n j Ra) (zhz l M (ce n Q));
  zi_sub : upd = true -> forall p, (j <= p)%Z -> (p + 1 < n)%Z -> ce n Ra (p + 1) p = 0;
  zi_out : forall i q, (0 <= i < n)%Z -> (nz <= q < n)%Z -> ce n Ra i q = ce n R0 i q
}.

Lemma posdef_ext m M M' : (forall a b, (0 <= a < m)%Z -> (0 <= b < m)%Z -> M a b = M' a b) -> posdef m M -> posdef m M'.
Proof.
  intros E P x Hx. replace (quad m M' x) with (quad m M x); [apply P, Hx|]. unfold quad. apply rsum_ext. intros i Hi. apply rsum_ext. intros k Hk. now rewrite E.
Qed.

Lemma zRotations_ok n FR l nfr nz upd (w Q Ra : arr) a M : zlen Q = (n * n)%Z -> NoDup l -> (forall v, In v l -> (0 <= v < n)%Z) ->
  nfr = zlen l -> (nfr <= n)%Z -> (forall k, (0 <= k < nfr)%Z -> rd FR k = Ok (zn 0%Z l k)) -> (0 < nz <= nfr)%Z -> (nz <= zlen w)%Z ->
  orth l nfr (ce n Q) -> (forall q, (0 <= q < nz)%Z -> zn 0 w q = comb l a (ce n Q) q) ->
  (upd = true -> zlen Ra = (n * n)%Z /\ gram nz (triu Ra n) (zhz l M (ce n Q)) /\ forall p, (0 <= p)%Z -> (p + 1 < n)%Z -> ce n Ra (p + 1) p = 0) ->
  wp (zRotations (N := N) n FR nfr nz upd w Q Ra) (fun '(w', Q', R') => zinv n l nfr nz upd M a w Q Ra (nz - 1) w' Q' R').
Proof.
  intros LQ ND RG EL Ln RD Hz Lw OQ Wa HR. unfold zRotations.
  apply wp_for_up with (I := fun j '(w', Q', R') => zinv n l nfr nz upd M a w Q Ra j w' Q' R'); [lia| | |].
  - constructor; auto; try (intros; lia). 2: { intros E p Hp. apply HR; auto. }
    intros E. destruct (HR E) as (_ & G & _). intros p q Hp Hq. rewrite <- G by lia. apply rsum_ext. intros k Hk. unfold hes, triu.
    destruct (Z.ltb_spec p 0), (Z.ltb_spec q 0); try lia. reflexivity.
  - intros j [[w1 Q1] R1] Hj I. apply wp_bind. eapply wp_mono; [apply (pivot_ok eps zero infty zero_nn j w1); [lia|rewrite (zi_w _ _ _ _ _ _ _ _ _ _ _ _ _ _ I); lia]|].
    intros [[w2 c] sn] (Lw2 & CS & Vw & Z0 & _). apply wp_bind. eapply wp_mono.
    { apply (rotQ_ok eps zero infty n FR l nfr c sn j Q1); auto; try lia. rewrite (zi_Q _ _ _ _ _ _ _ _ _ _ _ _ _ _ I). exact LQ. }
    intros Q2 (LQ2 & VQ & UQ). cbn beta.
    assert (VQ' : forall v q, In v l -> (0 <= q < n)%Z -> ce n Q2 v q = rot c sn j (ce n Q1 v) q) by exact VQ.
    assert (CB : forall b q, (0 <= q < n)%Z -> comb l b (ce n Q2) q = rot c sn j (comb l b (ce n Q1)) q).
    { intros b q Hq. rewrite <- comb_rot. apply comb_ext. intros v Hv. apply VQ; auto. }
    assert (BL : forall x y, (0 <= x < n)%Z -> (0 <= y < n)%Z -> zhz l M (ce n Q2) x y = rot2 c sn j (zhz l M (ce n Q1)) x y).
    { intros x y Hx Hy. rewrite <- zhz_rot. apply zhz_ext; intros v Hv; apply VQ; auto. }
    assert (RR : wp (if upd then rotR (N := N) n (j + 2) c sn j R1 else Ok R1) (fun R2 => zlen R2 = zlen R1 /\ (upd = false -> R2 = R1) /\
        (upd = true -> forall i q, (0 <= i < j + 2)%Z -> (0 <= q < n)%Z -> ce n R2 i q = rot c sn j (ce n R1 i) q) /\
        (forall i q, (j + 2 <= i < n)%Z -> (0 <= q < n)%Z -> ce n R2 i q = ce n R1 i q))).
    { destruct upd; [|apply wp_ok; repeat split; auto; discriminate].
      eapply wp_mono; [apply rotR_ok; try lia; rewrite (zi_R _ _ _ _ _ _ _ _ _ _ _ _ _ _ I); now apply HR|].
      intros R2 (L2 & V2 & U2). split; [exact L2|]. split; [discriminate|]. split; auto. }
    apply wp_bind. eapply wp_mono; [exact RR|]. intros R2 (LR2 & SR & VR & UR). apply wp_ok.
    destruct I. constructor.
    + exact (eq_trans Lw2 zi_w0).
    + exact (eq_trans LQ2 zi_Q0).
    + exact (eq_trans LR2 zi_R0).
    + apply (orth_ext l nfr (fun v => rot c sn j (ce n Q1 v))); [intros v q Hv Hq; apply VQ; auto; lia|]. apply orth_rot; auto; lia.
    + intros v q Hv Hq. rewrite VQ by (auto; lia). rewrite rot_ne by lia. auto.
    + intros v q Hv Nv Hq. rewrite UQ by auto. auto.
    + intros b Hb q Hq. rewrite CB by lia. apply rot_zero; apply zi_ker0; auto; lia.
    + intros q Hq. rewrite Vw, CB by lia. apply rot_ext; apply zi_wa0; lia.
    + intros q Hq. rewrite Vw by lia. rewrite rot_ne by lia. auto.
    + intros Ez q Hq. destruct (Z.eq_dec q j) as [->|]; [auto|]. rewrite Vw by lia. rewrite rot_ne by lia. apply zi_zero0; auto; lia.
    + rewrite <- zi_norm0. rewrite <- (rot_dot nz j (zn 0 w1) (zn 0 w1) c sn) by (auto; lia). apply rsum_ext. intros q Hq. now rewrite Vw by lia.
    + intros P. apply (posdef_ext nz (rot2 c sn j (zhz l M (ce n Q1)))); [intros; symmetry; apply BL; lia|]. apply posdef_rot; auto; lia.
    + intros E. rewrite SR, zi_same0; auto.
    + intros E p q Hp Hq. rewrite BL by lia. specialize (zi_gram0 E). specialize (zi_sub0 E). specialize (VR E).
      assert (HE : forall i x, (0 <= i < nz)%Z -> (0 <= x < nz)%Z -> hes n (j + 1) R2 i x = rot c sn j (hes n j R1 i) x).
      { intros i x Hi Hx. unfold hes, rot. destruct (Z_lt_le_dec i (j + 2)) as [Li|Li].
        - rewrite VR by lia. unfold rot.
          destruct (Z.eqb_spec x (1 + j)) as [->|N1]; [|destruct (Z.eqb_spec x j) as [->|N2]].
          + destruct (Z.ltb_spec (1 + j) (j + 1)), (Z.ltb_spec (1 + j) j), (Z.ltb_spec j j); try lia.
            destruct (Z.leb_spec i (1 + j)), (Z.leb_spec i j); try lia; [reflexivity|]. replace i with (j + 1)%Z by lia. rewrite (zi_sub0 j) by lia. ring.
          + destruct (Z.ltb_spec j (j + 1)), (Z.ltb_spec (1 + j) j), (Z.ltb_spec j j); try lia.
            destruct (Z.leb_spec i (j + 1)), (Z.leb_spec i (1 + j)), (Z.leb_spec i j); try lia; [reflexivity|]. replace i with (j + 1)%Z by lia. rewrite (zi_sub0 j) by lia. ring.
          + destruct (Z.ltb_spec x (j + 1)), (Z.ltb_spec x j); try lia; reflexivity.
        - rewrite UR by lia.
          destruct (Z.eqb_spec x (1 + j)) as [->|N1]; [|destruct (Z.eqb_spec x j) as [->|N2]].
          + destruct (Z.ltb_spec (1 + j) (j + 1)), (Z.ltb_spec (1 + j) j), (Z.ltb_spec j j); try lia.
            destruct (Z.leb_spec i (1 + j)), (Z.leb_spec i j); try lia. ring.
          + destruct (Z.ltb_spec j (j + 1)), (Z.ltb_spec (1 + j) j), (Z.ltb_spec j j); try lia.
            destruct (Z.leb_spec i (j + 1)), (Z.leb_spec i (1 + j)), (Z.leb_spec i j); try lia. ring.
          + destruct (Z.ltb_spec x (j + 1)), (Z.ltb_spec x j); try lia; reflexivity. }
      transitivity (rsum 0 nz (fun k => rot c sn j (hes n j R1 k) p * rot c sn j (hes n j R1 k) q)); [apply rsum_ext; intros k Hk; now rewrite !HE by lia|].
      unfold rsum. rewrite lsum_rot2. apply (rot2_ext _ _ _ _ _ _ _ nz); try lia. intros x y Hx Hy. apply zi_gram0; lia.
    + intros E p Hp Hn. specialize (zi_sub0 E). rewrite UR by lia. apply zi_sub0; lia.
    + intros i q Hi Hq. destruct upd; [|rewrite SR by auto; auto]. destruct (Z_lt_le_dec i (j + 2)).
      * rewrite VR by (auto; lia). rewrite rot_ne by lia. apply zi_out0; lia.
      * rewrite UR by lia. apply zi_out0; lia.
  - intros [[w' Q'] R'] I. exact I.
Qed.

(** R with its columns i.. still having one entry below the diagonal *)
Definition hes' (n i : Z) (Ra : arr) (r q : Z) : R := if (r <=? (if q <? i then q else q + 1))%Z then ce n Ra r q else 0.

Lemma restoreR_ok n nz (Ra : arr) M : zero = 0 -> zlen Ra = (n * n)%Z -> (0 < nz <= n)%Z -> gram nz (hes n (nz - 1) Ra) M ->
  wp (restoreR (N := N) n nz Ra) (fun R' => zlen R' = zlen Ra /\ gram (nz - 1) (triu R' n) M /\
    (forall p, (0 <= p)%Z -> (p + 1 < nz)%Z -> ce n R' (p + 1) p = 0) /\ (forall i, (0 <= i < nz)%Z -> ce n R' i (nz - 1) = 0) /\
    (forall i q, (0 <= i < n)%Z -> (0 <= q < n)%Z -> (nz <= i \/ nz <= q)%Z -> ce n R' i q = ce n Ra i q)).
Proof.
  intros Ez LR Hz G. unfold restoreR. apply wp_bind.
  apply wp_for_up with (I := fun i R1 => zlen R1 = zlen Ra /\
     (forall q q', (0 <= q < nz - 1)%Z -> (0 <= q' < nz - 1)%Z -> rsum 0 nz (fun r => hes' n i R1 r q * hes' n i R1 r q') = M q q') /\
     (forall p, (0 <= p < i)%Z -> ce n R1 (p + 1) p = 0) /\
     (forall x q, (0 <= x < n)%Z -> (0 <= q < n)%Z -> (nz <= x \/ nz <= q)%Z -> ce n R1 x q = ce n Ra x q)); [lia| | |].
  - split; [reflexivity|]. split; [|split; [intros; lia|reflexivity]]. intros q q' Hq Hq'. rewrite <- G by lia. apply rsum_ext. intros r Hr. unfold hes, hes'.
    destruct (Z.ltb_spec q 0), (Z.ltb_spec q (nz - 1)), (Z.ltb_spec q' 0), (Z.ltb_spec q' (nz - 1)); try lia. reflexivity.
  - intros i R1 Hi (L1 & GR & SB & OUT).
    assert (IN : forall (a : arr) p q, zlen a = zlen Ra -> (0 <= p < n)%Z -> (0 <= q < n)%Z -> (0 <= p + n * q < zlen a)%Z).
    { intros a p q E Hp Hq. apply (ce_in n a n); auto; [lia|]. now rewrite E. }
    rewrite (rd_ok 0) by (apply IN; auto; lia). cbn [bind]. rewrite (rd_ok 0) by (apply IN; auto; lia). cbn [bind].
    destruct (computeGivens (N := N) (zn 0 R1 (i + n * i)) (zn 0 R1 (1 + i + n * i))) as [[[x' y'] c] sn] eqn:EG.
    apply C28_computeGivens in EG as (CS & AP & _ & NR & Z0 & Z1); [|exact zero_nn].
    unfold applyGivens in AP. rnum in AP. injection AP as AP1 AP2.
    assert (Y0 : y' = 0).
    { destruct (Rle_lt_dec (Rabs (zn 0 R1 (1 + i + n * i))) zero) as [Le|Lt]; [|auto]. destruct (Z1 Le) as (_ & _ & ->).
      rewrite Ez in Le. pose proof (Rabs_pos (zn 0 R1 (1 + i + n * i))) as P. destruct (Req_dec (zn 0 R1 (1 + i + n * i)) 0) as [|Ne]; [auto|].
      apply Rabs_no_R0 in Ne. exfalso. apply Ne. lra. }
    clear Z0 Z1 NR. rcar. rewrite (@wr_ok R) by (apply IN; auto; lia). cbn [bind]. rewrite (@wr_ok R) by (rewrite zlen_zupd; apply IN; auto; lia). cbn [bind].
    set (R2 := zupd (zupd R1 (i + n * i) x') (1 + i + n * i) y').
    assert (L2 : zlen R2 = zlen Ra) by (unfold R2; now rewrite !zlen_zupd).
    assert (E2 : forall p q, (0 <= p < n)%Z -> (0 <= q < n)%Z -> ce n R2 p q =
       if (q =? i)%Z then (if (p =? 1 + i)%Z then y' else if (p =? i)%Z then x' else ce n R1 p q) else ce n R1 p q).
    { intros p q Hp Hq. unfold R2. rewrite ce_upd; [|lia|lia|lia|lia|rewrite zlen_zupd; apply IN; auto; lia]. rewrite ce_upd; [|lia|lia|lia|lia|apply IN; auto; lia].
      destruct (Z.eqb_spec q i), (Z.eqb_spec p (1 + i)), (Z.eqb_spec p i); cbn [andb]; try reflexivity; lia. }
    apply (wp_pairs 0 (fun x y => c * x + sn * y) (fun x y => - sn * x + c * y) (fun k => i + n * k)%Z (fun k => 1 + i + n * k)%Z).
    + lia.
    + intros k Hk. split; [apply IN; auto; lia|]. split; [apply IN; auto; lia|]. apply ce_ne; lia.
    + intros k k' Hk Hk' Ne. split; [|split]; apply ce_ne; lia.
    + intros k s Hk Ls. rewrite L2 in Ls. rewrite (rd_ok 0) by (apply IN; auto; lia). cbn [bind]. rewrite (rd_ok 0) by (apply IN; auto; lia). cbn [bind].
      unfold applyGivens. rnum. rewrite wr_ok by (apply IN; auto; lia). cbn [bind]. rewrite wr_ok by (rewrite zlen_zupd; apply IN; auto; lia). reflexivity.
    + intros R3 L3 V U. rewrite L2 in L3. split; [exact L3|].
      assert (E3 : forall p q, (0 <= p < n)%Z -> (0 <= q < n)%Z -> ce n R3 p q =
        if ((i <=? q) && (q <? nz - 1))%Z then (if (p =? i)%Z then c * ce n R1 i q + sn * ce n R1 (1 + i) q else
           if (p =? 1 + i)%Z then - sn * ce n R1 i q + c * ce n R1 (1 + i) q else ce n R1 p q) else ce n R1 p q).
      { intros p q Hp Hq. destruct (Z.leb_spec i q) as [H1|H1], (Z.ltb_spec q (nz - 1)) as [H2|H2]; cbn [andb].
        - destruct (Z.eq_dec q i) as [->|Nq].
          + transitivity (ce n R2 p i).
            { unfold ce. apply U; [nia|]. intros k Hk. split; apply ce_ne; lia. }
            rewrite E2, Z.eqb_refl by lia. destruct (Z.eqb_spec p i) as [->|]; [destruct (Z.eqb_spec i (1 + i)); [lia|]; unfold ce; congruence|].
            destruct (Z.eqb_spec p (1 + i)); [unfold ce; congruence|reflexivity].
          + destruct (V q ltac:(lia)) as (V1 & V2).
            assert (X1 : zn 0 R2 (i + n * q) = ce n R1 i q). { change (ce n R2 i q = ce n R1 i q). rewrite E2 by lia. destruct (Z.eqb_spec q i); [lia|reflexivity]. }
            assert (X2 : zn 0 R2 (1 + i + n * q) = ce n R1 (1 + i) q). { change (ce n R2 (1 + i) q = ce n R1 (1 + i) q). rewrite E2 by lia. destruct (Z.eqb_spec q i); [lia|reflexivity]. }
            rewrite X1, X2 in V1, V2. destruct (Z.eqb_spec p i) as [->|]; [exact V1|]. destruct (Z.eqb_spec p (1 + i)) as [->|]; [exact V2|].
            transitivity (ce n R2 p q); [|rewrite E2 by lia; destruct (Z.eqb_spec q i); [lia|reflexivity]].
            unfold ce. apply U; [nia|]. intros k Hk. split; apply ce_ne; lia.
        - transitivity (ce n R2 p q); [|rewrite E2 by lia; destruct (Z.eqb_spec q i); [lia|reflexivity]].
          unfold ce. apply U; [nia|]. intros k Hk. split; apply ce_ne; lia.
        - transitivity (ce n R2 p q); [|rewrite E2 by lia; destruct (Z.eqb_spec q i); [lia|reflexivity]].
          unfold ce. apply U; [nia|]. intros k Hk. split; apply ce_ne; lia.
        - lia. }
      split; [|split].
      * intros q q' Hq Hq'. rewrite <- (GR q q') by lia.
        assert (ROW : forall q, (0 <= q < nz - 1)%Z ->
            (forall p, (0 <= p < nz)%Z -> p <> i -> p <> (1 + i)%Z -> hes' n (i + 1) R3 p q = hes' n i R1 p q) /\
            hes' n (i + 1) R3 i q = c * hes' n i R1 i q + sn * hes' n i R1 (1 + i)%Z q /\
            hes' n (i + 1) R3 (1 + i)%Z q = - sn * hes' n i R1 i q + c * hes' n i R1 (1 + i)%Z q).
        { clear q q' Hq Hq'. intros q Hq. unfold hes'. rewrite !E3 by lia. rewrite Z.eqb_refl. destruct (Z.eqb_spec (1 + i) i); [lia|]. rewrite Z.eqb_refl.
          destruct (Z.ltb_spec q (nz - 1)); [|lia]. rewrite andb_true_r. split; [|split].
          - intros p Hp N1 N2. rewrite E3 by lia. destruct (Z.eqb_spec p i); [lia|]. destruct (Z.eqb_spec p (1 + i)); [lia|].
            destruct ((i <=? q) && (q <? nz - 1))%Z; destruct (Z.ltb_spec q (i + 1)), (Z.ltb_spec q i); try lia; try reflexivity;
            destruct (Z.leb_spec p q), (Z.leb_spec p (q + 1)); try lia; reflexivity.
          - destruct (Z.leb_spec i q), (Z.ltb_spec q (i + 1)), (Z.ltb_spec q i); try lia.
            + destruct (Z.leb_spec i q), (Z.leb_spec i (q + 1)), (Z.leb_spec (1 + i) (q + 1)); try lia; reflexivity.
            + destruct (Z.leb_spec i (q + 1)), (Z.leb_spec (1 + i) (q + 1)); try lia; reflexivity.
            + destruct (Z.leb_spec i q), (Z.leb_spec (1 + i) q); try lia. ring.
          - destruct (Z.leb_spec i q), (Z.ltb_spec q (i + 1)), (Z.ltb_spec q i); try lia.
            + replace q with i in * by lia. destruct (Z.leb_spec (1 + i) i), (Z.leb_spec i (i + 1)), (Z.leb_spec (1 + i) (i + 1)); try lia. unfold ce. rewrite AP2. auto.
            + destruct (Z.leb_spec i (q + 1)), (Z.leb_spec (1 + i) (q + 1)); try lia; reflexivity.
            + destruct (Z.leb_spec i q), (Z.leb_spec (1 + i) q); try lia. ring. }
        destruct (ROW q Hq) as (A1 & A2 & A3), (ROW q' Hq') as (B1 & B2 & B3).
        apply (rot_gram nz (1 + i) q q' _ _ c sn); try replace (1 + i - 1)%Z with i by lia; auto; try lia.
      * intros p Hp. rewrite E3 by lia. destruct (Z.eq_dec p i) as [->|Np].
        -- destruct (Z.leb_spec i i), (Z.ltb_spec i (nz - 1)); try lia. cbn [andb]. destruct (Z.eqb_spec (i + 1) i); [lia|]. destruct (Z.eqb_spec (i + 1) (1 + i)); [|lia].
           unfold ce. rewrite AP2. exact Y0.
        -- destruct (Z.leb_spec i p); [lia|]. cbn [andb]. apply SB. lia.
      * intros x q Hx Hq Ho. rewrite E3 by lia. rewrite <- OUT by lia. destruct (Z.leb_spec i q), (Z.ltb_spec q (nz - 1)); cbn [andb]; auto.
        destruct (Z.eqb_spec x i); [lia|]. destruct (Z.eqb_spec x (1 + i)); [lia|reflexivity].
  - intros R1 (L1 & GR & SB & OUT).
    apply wp_for_up with (I := fun k R2 => zlen R2 = zlen Ra /\ forall x q, (0 <= x < n)%Z -> (0 <= q < n)%Z ->
      ce n R2 x q = if ((q =? nz - 1) && (x <? k))%Z then 0 else ce n R1 x q); [lia| | |].
    + split; [exact L1|]. intros x q Hx Hq. destruct (Z.ltb_spec x 0); [lia|]. now rewrite andb_false_r.
    + intros k R2 Hk (L2 & V2). rewrite wr_ok by (apply (ce_in n R2 n); try lia; congruence). apply wp_ok. rewrite zlen_zupd. split; [exact L2|].
      intros x q Hx Hq. rnum. rewrite ce_upd; [|lia|lia|lia|lia|apply (ce_in n R2 n); try lia; congruence]. rewrite V2 by lia.
      destruct (Z.eqb_spec x k), (Z.eqb_spec q (nz - 1)), (Z.ltb_spec x k), (Z.ltb_spec x (k + 1)); cbn [andb]; try lia; reflexivity.
    + intros R2 (L2 & V2). split; [exact L2|]. split; [|split; [|split]].
      * intros p q Hp Hq. rewrite <- GR by lia. replace nz with (nz - 1 + 1)%Z at 2 by lia. rewrite rsum_last by lia.
        replace (hes' n (nz - 1) R1 (nz - 1) p * _) with 0.
        2: { unfold hes'. destruct (Z.ltb_spec p (nz - 1)); [|lia]. destruct (Z.leb_spec (nz - 1) p); [lia|]. ring. }
        rewrite Rplus_0_r. apply rsum_ext. intros r Hr. unfold triu, hes'. destruct (Z.ltb_spec p (nz - 1)), (Z.ltb_spec q (nz - 1)); try lia.
        f_equal; [destruct (Z.leb_spec r p); [|reflexivity]|destruct (Z.leb_spec r q); [|reflexivity]]; fold (ce n R2 r p); fold (ce n R2 r q); rewrite V2 by lia.
        -- destruct (Z.eqb_spec p (nz - 1)); [lia|reflexivity].
        -- destruct (Z.eqb_spec q (nz - 1)); [lia|reflexivity].
      * intros p Hp Hp1. rewrite V2 by lia. destruct (Z.eqb_spec p (nz - 1)); [lia|]. cbn [andb]. apply SB. lia.
      * intros i Hi. rewrite V2 by lia. rewrite Z.eqb_refl. destruct (Z.ltb_spec i nz); [reflexivity|lia].
      * intros i q Hi Hq Ho. rewrite V2 by lia. rewrite <- OUT by lia. destruct (Z.eqb_spec q (nz - 1)), (Z.ltb_spec i nz); try lia; reflexivity.
Qed.

(** a triangular factor of a positive definite matrix has a nonzero diagonal *)
Lemma gram_diag m U M : upper_tri m U -> gram m U M -> posdef m M -> forall i, (0 <= i < m)%Z -> U i i <> 0.
Proof.
  intros UT G P.
  assert (A : forall k, (0 <= k)%Z -> (k <= m)%Z -> forall i, (0 <= i < k)%Z -> U i i <> 0).
  { intros k Hk. pattern k. apply natlike_ind; [intros; lia| |exact Hk]. clear k Hk. intros k Hk IH Hm i Hi.
    destruct (Z.eq_dec i k) as [->|]; [|apply IH; lia]. intros Z0.
    destruct (tri_solve k U (fun i => - U i k)) as (x & Hx); [exact Hk|intros a b Ha Hb; apply UT; lia|apply IH; lia|].
    set (y := fun j => if (j <? k)%Z then x j else if (j =? k)%Z then 1 else 0).
    assert (Ny : exists i, (0 <= i < m)%Z /\ y i <> 0).
    { exists k. split; [lia|]. unfold y. destruct (Z.ltb_spec k k); [lia|]. rewrite Z.eqb_refl. lra. }
    specialize (P y Ny). rewrite (gram_quad m U M y G) in P.
    assert (E : forall r, (0 <= r < m)%Z -> matvec m U y r = 0).
    { intros r Hr. unfold matvec. rewrite (rsum_split 0 (k + 1) m) by lia. rewrite rsum_last by lia.
      rewrite (rsum_0 (k + 1) m). 2: { intros j Hj. unfold y. destruct (Z.ltb_spec j k), (Z.eqb_spec j k); try lia. ring. }
      assert (Y1 : y k = 1) by (unfold y; destruct (Z.ltb_spec k k); [lia|]; now rewrite Z.eqb_refl). rewrite Y1.
      transitivity (rsum 0 k (fun j => U r j * x j) + U r k).
      { rewrite (rsum_ext 0 k _ (fun j => U r j * x j)); [ring|]. intros j Hj. unfold y. destruct (Z.ltb_spec j k); [reflexivity|lia]. }
      destruct (Z_lt_le_dec r k) as [Lr|Lr].
      - specialize (Hx r ltac:(lia)). unfold matvec in Hx. rewrite Hx. ring.
      - rewrite rsum_0; [|intros j Hj; rewrite UT by lia; ring]. destruct (Z.eq_dec r k) as [->|]; [rewrite Z0; ring|]. rewrite UT by lia. ring. }
    enough (rsum 0 m (fun k0 => matvec m U y k0 * matvec m U y k0) = 0) by lra. apply rsum_0. intros r Hr. rewrite E by lia. ring. }
  intros i Hi. apply (A m); lia.
Qed.
End X3.
