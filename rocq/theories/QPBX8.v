(** Exact computations of one homotopy iteration of QProblemB: the Cholesky
    factor from scratch, the data shift, the step and the homotopy length. *)
From Verif Require Import Base Types Num Options Indexlist IndexlistProofs Loops RSum LinSpec SafeLib SubjectTo SubjectToProofs SubjectToProofs2
  Flipper PropFlipper Matrices MatLib MatSafe LinAlg PropLinAlg QProblemB QPBSafe QPBSafe2 QPBSafe3 QPBX1 QPBX2 QPBX3 QPBX4 QPBX5 QPBSafe6 PropRatio QPBX7.
Local Open Scope R_scope.

Section X8.
Variables eps zero infty : R.
Notation N := (RNumT eps zero infty).
Notation arr := (list R).
Notation xv := (xv eps zero infty). Notation yv := (yv eps zero infty). Notation gv := (gv eps zero infty).
Notation lv := (lv eps zero infty). Notation uv := (uv eps zero infty). Notation sv := (sv eps zero infty). Notation tv := (tv eps zero infty).

Ltac rdx := rewrite (rd_ok 0) by (rcar; rewrite ?zlen_zupd; lia); cbn [bind].
Ltac wrx := rewrite wr_ok by (rcar; rewrite ?zlen_zupd; lia); cbn [bind].

(** ** The factor *)
Lemma cm_inj n p q p' q' : (0 <= p < n)%Z -> (0 <= p' < n)%Z -> (p + n * q = p' + n * q')%Z -> p = p' /\ q = q'.
Proof. intros Hp Hp' E. destruct (Z.lt_trichotomy q q') as [L|[L|L]]; [exfalso; nia|subst; split; lia|exfalso; nia]. Qed.
Lemma at_off_exact (a : arr) off (f : arr -> res arr) (P : arr -> Prop) : (0 <= off <= zlen a)%Z ->
  (forall b, zlen b = (zlen a - off)%Z -> wp (f b) (fun b' => zlen b' = zlen b /\ P b')) ->
  wp (at_off (N := N) a off f) (fun a' => zlen a' = zlen a /\ (forall k, (0 <= k < off)%Z -> zn 0 a' k = zn 0 a k) /\
    exists b', P b' /\ forall k, (0 <= k)%Z -> zn 0 a' (off + k) = zn 0 b' k).
Proof.
  intros Ho Hf. unfold at_off. destruct (Z.ltb_spec off 0); [lia|]. rcar. destruct (Z.ltb_spec (zlen a) off); [lia|]. cbn [orb].
  assert (Lb : zlen (skipn (Z.to_nat off) a) = (zlen a - off)%Z) by (unfold zlen in *; rewrite skipn_length; lia).
  assert (Lf : zlen (firstn (Z.to_nat off) a) = off) by (unfold zlen in *; rewrite firstn_length; lia).
  apply wp_bind. eapply wp_mono; [apply Hf, Lb|]. intros b (L & Pb). cbn [wp]. split; [rewrite zlen_app; lia|]. split.
  - intros k Hk. rewrite zn_app1 by lia. transitivity (zn 0 (firstn (Z.to_nat off) a ++ skipn (Z.to_nat off) a) k); [now rewrite zn_app1 by lia|now rewrite firstn_skipn].
  - exists b. split; [exact Pb|]. intros k Hk. rewrite zn_app2 by lia. f_equal. lia.
Qed.

Lemma sub_posdef n Hm l : posdef n Hm -> NoDup l -> (forall v, In v l -> (0 <= v < n)%Z) -> posdef (zlen l) (sub l Hm).
Proof.
  intros PD ND I0 x (p & Hp & X). rewrite <- (spread_quad n l x I0). apply PD. exists (zz l p). split; [apply I0, zn_In, Hp|].
  now rewrite (spread_at l x ND p Hp).
Qed.

Lemma computeCholesky_exact n (s : qpb N) l0 l1 Hm : 0 <= zero -> qwf n s l0 l1 -> hess eps zero infty n s Hm -> symm_on n Hm ->
  wp (computeCholesky (N := N) s) (fun '(r, s') =>
    (r = SUCCESSFUL_RETURN -> (exists R, zlen R = (n * n)%Z /\ s' = set_q_R (N := N) R s) /\ cholesky eps zero infty n s' l0 Hm) /\
    (posdef n Hm -> r = SUCCESSFUL_RETURN)).
Proof.
  intros Z0 W HE SY. pose proof (w_n _ _ _ _ W) as Hn. unfold computeCholesky. rewrite (w_nv _ _ _ _ W).
  pose proof (w_R _ _ _ _ W) as LR0. pose proof (w_len0 _ _ _ _ W) as L0. pose proof (zlen_nonneg l0) as P0.
  assert (nd0 : NoDup l0) by exact (rep_NoDup _ _ (w_rep0 _ _ _ _ W)).
  apply wp_bind. apply (wp_fill (0:R) (fun _ => 0)); [rcar; nia|intros i a Hi La; apply wr_ok; rcar; lia|]. intros R LR VR _.
  assert (LR' : zlen R = (n * n)%Z) by (rcar; congruence).
  (* scalar Hessians *)
  assert (Diag : forall v c, plainH s = false -> (forall i j, Hm i j = c * delta i j) -> c = v * v -> v <> 0 ->
    wp (R <- for_up 0 n (fun i R => wr R (i + n * i)%Z (v : N)) R ;; Ok (SUCCESSFUL_RETURN, set_q_R (N := N) R s)) (fun '(r, s') =>
    (r = SUCCESSFUL_RETURN -> (exists R, zlen R = (n * n)%Z /\ s' = set_q_R (N := N) R s) /\ cholesky eps zero infty n s' l0 Hm) /\
    (posdef n Hm -> r = SUCCESSFUL_RETURN))).
  { intros v c PH Hc Ec Nz. apply wp_bind.
    apply wp_for_up with (I := fun k (R1 : arr) => zlen R1 = (n * n)%Z /\ forall p q, (0 <= p < n)%Z -> (0 <= q < n)%Z -> zn 0 R1 (p + n * q) = if (p =? q)%Z && (p <? k)%Z then v else 0); [lia| | |].
    - split; [exact LR'|]. intros p q Hp Hq. rewrite VR by nia. destruct (Z.ltb_spec p 0); [lia|]. now rewrite andb_false_r.
    - intros k R1 Hk (L1 & V1). rewrite wr_ok by (rcar; nia). cbn [wp]. split; [now rewrite zlen_zupd|]. intros p q Hp Hq.
      rewrite zn_zupd by (rcar; nia). destruct (Z.eqb_spec (p + n * q) (k + n * k)) as [E|E].
      + destruct (cm_inj n p q k k Hp Hk E) as (-> & ->). rewrite Z.eqb_refl. destruct (Z.ltb_spec k (k + 1)); [reflexivity|lia].
      + rewrite V1 by auto. destruct (Z.eqb_spec p q) as [->|]; cbn [andb]; [|reflexivity].
        destruct (Z.ltb_spec q k), (Z.ltb_spec q (k + 1)); try reflexivity; try lia. assert (q = k) by lia. subst. lia.
    - intros R1 (L1 & V1). cbn [wp]. split; [|reflexivity]. intros _. split; [eauto|]. unfold cholesky.
      change (plainH (set_q_R (N := N) R1 s)) with (plainH s). rewrite PH. right. exists v. split; [exact Nz|]. split.
      + intros p q Hp Hq. change (q_R (set_q_R (N := N) R1 s)) with R1. unfold ce. rewrite V1 by lia. unfold delta.
        destruct (Z.eqb_spec p q); cbn [andb]; [|ring]. destruct (Z.ltb_spec p n); [ring|lia].
      + intros i j _ _. rewrite Hc, Ec. ring. }
  assert (Plain : plainH s = true -> wp (if (nFR s <=? 0)%Z then Ok (SUCCESSFUL_RETURN, set_q_R (N := N) R s) else
      M <- q_theH s ;;
      R <- for_up 0 (nFR s) (fun j R =>
             c <- rd (FR_idx s) j ;; at_off R (j * n) (m_getCol (N := N) M c (st_ina (q_bounds s)) n1)) R ;;
      '(info, R) <- dpotrf (N := N) (nFR s) R n ;;
      if (0 <? info)%Z then
        r0 <- rd R 0 ;;
        let o := q_opts s in
        let o := if r0 <' n0 then
                   set_o_epsRegularisation
                     (getMin (-' r0 +' o_epsRegularisation o) (nsqrt (nabs (o_epsRegularisation o)))) o
                 else o in
        Ok (RET_HESSIAN_NOT_SPD, set_q_htype HST_SEMIDEF (set_q_opts o (set_q_R R s)))
      else
        R <- for_up 0 (nFR s - 1) (fun i R => wr R (i + 1 + n * i)%Z n0) R ;;
        Ok (SUCCESSFUL_RETURN, set_q_R R s)) (fun '(r, s') =>
    (r = SUCCESSFUL_RETURN -> (exists R, zlen R = (n * n)%Z /\ s' = set_q_R (N := N) R s) /\ cholesky eps zero infty n s' l0 Hm) /\
    (posdef n Hm -> r = SUCCESSFUL_RETURN))).
  { intros PH. rewrite (w_nfr _ _ _ _ W). set (m := zlen l0) in *. destruct (Z.leb_spec m 0) as [M0|Pos].
    { cbn [wp]. split; [|reflexivity]. intros _. split; [eauto|]. unfold cholesky. change (plainH (set_q_R (N := N) R s)) with (plainH s). rewrite PH. split; intros i; fold m; lia. }
    destruct (hess_plain eps zero infty n s Hm HE PH) as (M & _ & EM & MO). rewrite EM. cbn [bind].
    apply wp_bind. apply wp_for_up with (I := fun j (R1 : arr) => zlen R1 = (n * n)%Z /\ forall p q, (0 <= p < m)%Z -> (0 <= q < j)%Z -> zn 0 R1 (p + n * q) = Hm (zz l0 p) (zz l0 q)); [lia| | |].
    - split; [exact LR'|]. intros; lia.
    - intros j R1 Hj (L1 & V1). unfold FR_idx. rewrite (rd_rep _ l0) by (auto; apply (w_rep0 _ _ _ _ W)). cbn [bind]. fold (zz l0 j).
      assert (Hjn : (0 <= j * n <= n * n - n)%Z) by nia.
      pose proof (in0 eps zero infty n s l0 l1 W j Hj) as Rj.
      eapply wp_mono; [apply (at_off_exact R1 (j * n) _ (fun b' => forall p, (0 <= p < m)%Z -> zn 0 b' p = Hm (zz l0 p) (zz l0 j)))|].
      + rewrite L1. lia.
      + intros b Lb. destruct (mo_col _ _ _ _ _ _ MO (zz l0 j) _ l0 b (w_rep0 _ _ _ _ W) (w_in0 _ _ _ _ W) Rj) as (b' & E & Lb' & V & _); [fold m; lia|].
        rewrite E. cbn [wp]. split; [exact Lb'|exact V].
      + intros R2 (L2 & K2 & b' & Vb & V2). split; [etransitivity; [exact L2|exact L1]|]. intros p q Hp Hq. destruct (Z.eq_dec q j) as [->|].
        * replace (p + n * j)%Z with (j * n + p)%Z by ring. rewrite V2 by lia. now apply Vb.
        * rewrite K2 by nia. apply V1; lia.
    - intros R1 (L1 & V1). apply wp_bind.
      destruct (C27_dpotrf eps zero infty m n R1) as (info & R2 & E & L2 & I1 & I2 & I3); [lia|rewrite L1; nia|].
      rcar. rewrite E. cbn [wp]. assert (SM : forall i j, (0 <= i < m)%Z -> (0 <= j < m)%Z -> symm R1 n i j = sub l0 Hm i j).
      { intros i j Hi Hj. unfold symm. rewrite V1 by lia. unfold sub. destruct (Z_le_gt_dec i j).
        - now rewrite Z.min_l, Z.max_r by lia.
        - rewrite Z.min_r, Z.max_l by lia. apply SY; now apply (in0 eps zero infty n s l0 l1 W). }
      destruct (Z.ltb_spec 0 info) as [Ip|Ip].
      + rewrite (rd_ok 0) by (rcar; rewrite L2, L1; nia). cbn [bind wp]. split; [discriminate|]. intros PD. exfalso.
        destruct (I3 ltac:(lia)) as (Rg & _ & NP & _). assert (X : posdef m (sub l0 Hm)) by (apply (sub_posdef n); auto; apply (w_in0 _ _ _ _ W)).
        assert (Y : posdef m (symm R1 n)).
        { intros x Hx. replace (quad m (symm R1 n) x) with (quad m (sub l0 Hm) x); [now apply X|]. unfold quad. apply rsum_ext. intros i Hi. apply rsum_ext. intros j Hj. now rewrite SM. }
        apply I1 in Y. lia.
      + assert (info = 0%Z) as -> by (destruct (Z.eq_dec info 0) as [->|Ne]; [reflexivity|destruct (I3 Ne); lia]).
        destruct (I2 eq_refl) as (G & D & _).
        apply wp_bind. apply wp_for_up with (I := fun _ (R3 : arr) => zlen R3 = (n * n)%Z /\ forall p q, (0 <= p <= q)%Z -> (q < n)%Z -> zn 0 R3 (p + n * q) = zn 0 R2 (p + n * q)); [lia| | |].
        * split; [congruence|auto].
        * intros k R3 Hk (L3 & V3). rewrite wr_ok by (rcar; nia). cbn [wp]. split; [now rewrite zlen_zupd|]. intros p q Hp Hq.
          rewrite zn_zupd_ne by (try nia; intros X; destruct (cm_inj n p q (k + 1) k ltac:(lia) ltac:(lia) X); lia). now apply V3.
        * intros R3 (L3 & V3). cbn [wp]. split; [|reflexivity]. intros _. split; [eauto|]. unfold cholesky.
          change (plainH (set_q_R (N := N) R3 s)) with (plainH s). rewrite PH. change (q_R (set_q_R (N := N) R3 s)) with R3. fold m.
          assert (T : forall i j, (0 <= i < m)%Z -> (0 <= j < m)%Z -> triu R3 n i j = triu R2 n i j).
          { intros i j Hi Hj. unfold triu. destruct (Z.leb_spec i j); [|reflexivity]. apply V3; lia. }
          split.
          -- intros i j Hi Hj. rewrite <- SM by auto. rewrite <- (G i j Hi Hj). apply rsum_ext. intros k Hk. now rewrite !T.
          -- intros i Hi. unfold ce. rewrite V3 by lia. specialize (D i Hi). unfold triu in D. rewrite Z.leb_refl in D. lra. }
  destruct (q_htype s) eqn:HT; try (apply Plain; unfold plainH, is_hst; rewrite HT; reflexivity).
  - assert (PH : plainH s = false) by (unfold plainH, is_hst; rewrite HT; reflexivity). unfold hess in HE. rewrite HT in HE.
    destruct (usingReg s) eqn:UR.
    + assert (Pr : 0 < q_regVal s) by (unfold usingReg in UR; revert UR; rnum; destruct (Rltb_spec zero (q_regVal s)); intros; [lra|discriminate]).
      apply (Diag (sqrt (q_regVal s)) (q_regVal s)); auto; [rewrite sqrt_sqrt; lra|]. pose proof (sqrt_lt_R0 _ Pr). lra.
    + cbn [wp]. split; [discriminate|]. intros PD. exfalso.
      specialize (PD (fun _ => 1)). enough (0 < 0) by lra. replace 0 with (quad n Hm (fun _ => 1)) at 2; [apply PD; exists 0%Z; split; [lia|lra]|].
      unfold quad. apply rsum_0. intros i _. apply rsum_0. intros j _. rewrite HE. ring.
  - assert (PH : plainH s = false) by (unfold plainH, is_hst; rewrite HT; reflexivity). unfold hess in HE. rewrite HT in HE.
    apply (Diag 1 1); auto; try lra. intros; rewrite HE; ring.
Qed.

(** ** The data shift *)
Definition bv (new : option arr) (dflt : R) (i : Z) : R := match new with Some a => zn 0 a i | None => dflt end.

Lemma shift_exact n (s : qpb N) l0 l1 (gn : arr) lbn ubn (d : deltas N) : qwf n s l0 l1 -> (n <= zlen gn)%Z -> olen (N := N) n lbn -> olen (N := N) n ubn -> dwf n d ->
  wp (determineDataShift (N := N) gn lbn ubn s d) (fun '(d', isZ) => dwf n d' /\
    (forall i, (0 <= i < n)%Z -> zn 0 (dl_g d') i = zn 0 gn i - gv s i /\ zn 0 (dl_lb d') i = bv lbn (- infty) i - lv s i /\ zn 0 (dl_ub d') i = bv ubn infty i - uv s i) /\
    (isZ = true -> forall q, (0 <= q < zlen l1)%Z -> Rabs (zn 0 (dl_lb d') (zz l1 q)) <= eps /\ Rabs (zn 0 (dl_ub d') (zz l1 q)) <= eps)).
Proof.
  intros W Hg Hl Hu D. unfold determineDataShift. cbv zeta. rewrite (w_nv _ _ _ _ W), (w_nfx _ _ _ _ W). pose proof (w_n _ _ _ _ W) as Hn.
  pose proof (w_g _ _ _ _ W) as Wg. pose proof (w_lb _ _ _ _ W) as Wl. pose proof (w_ub _ _ _ _ W) as Wu. pose proof D as [D1 D2 D3 D4 D5 D6]. rcar.
  apply wp_bind. apply (wp_fill (0:R) (fun i => zn 0 gn i - gv s i)); [rcar; lia| |].
  { intros i a Hi La. rdx. rdx. apply wr_ok. rcar; lia. }
  intros dg Lg Vg _. rcar.
  apply wp_bind. apply (wp_fill (0:R) (fun i => bv lbn (- infty) i - lv s i)); [rcar; lia| |].
  { intros i a Hi La. unfold bv. destruct lbn as [ln|]; unfold olen in Hl; rcar; repeat rdx; apply wr_ok; rcar; lia. }
  intros dlb Ll Vl _. rcar.
  apply wp_bind. apply (wp_fill (0:R) (fun i => bv ubn infty i - uv s i)); [rcar; lia| |].
  { intros i a Hi La. unfold bv. destruct ubn as [un|]; unfold olen in Hu; rcar; repeat rdx; apply wr_ok; rcar; lia. }
  intros dub Lu Vu _. rcar.
  assert (DW : dwf n (mkD (N := N) dg dlb dub (dl_xFX d) (dl_xFR d) (dl_yFX d))) by (constructor; cbn; rcar; congruence).
  pose proof (w_len1 _ _ _ _ W). pose proof (zlen_nonneg l1).
  apply wp_bind. apply wp_forb_up with (I := fun k _ => forall q, (0 <= q < k)%Z -> Rabs (zn 0 dlb (zz l1 q)) <= eps /\ Rabs (zn 0 dub (zz l1 q)) <= eps) (J := fun _ => True); [lia|intros; lia| | |].
  - intros k [] Hk Ik. unfold FX_idx. rewrite (rd_rep _ l1) by (auto; apply (w_rep1 _ _ _ _ W)). cbn [bind]. pose proof (in1 eps zero infty n s l0 l1 W k Hk) as Rk. fold (zz l1 k).
    rdx. rnum. destruct (Rltb_spec eps (Rabs (zn 0 dlb (zz l1 k)))) as [X|X]; [exact I|]. rdx.
    destruct (Rltb_spec eps (Rabs (zn 0 dub (zz l1 k)))) as [Y|Y]; [exact I|]. cbn [wp]. intros q Hq. destruct (Z.eq_dec q k) as [->|]; [lra|apply Ik; lia].
  - intros [] Ik. cbn [wp]. split; [exact DW|]. split; [intros i Hi; cbn; auto|]. intros _. exact Ik.
  - intros [] _. cbn [wp]. split; [exact DW|]. split; [intros i Hi; cbn; auto|]. discriminate.
Qed.

(** ** The homotopy length *)
Definition near (tol : R) (new cur : R) : Prop := Rabs (new - cur) <= tol * Rmax 1 (Rabs new).
Lemma homLen1_exact n (new cur : arr) (len : R) : (0 <= n)%Z -> (n <= zlen new)%Z -> (n <= zlen cur)%Z ->
  wp (homLen1 (N := N) new cur n len) (fun len' => len <= len' /\ forall i, (0 <= i < n)%Z -> near len' (zn 0 new i) (zn 0 cur i)).
Proof.
  intros Hn Ln Lc. unfold homLen1.
  apply wp_for_up with (I := fun k (l : R) => len <= l /\ forall i, (0 <= i < k)%Z -> near l (zn 0 new i) (zn 0 cur i)); [lia|split; [lra|intros; lia]| |auto].
  intros k l Hk (L & V). rdx. rdx. cbn [wp]. rnum.
  set (sc := if Rltb (Rabs (zn 0 new k)) 1 then 1 else Rabs (zn 0 new k)).
  assert (Es : sc = Rmax 1 (Rabs (zn 0 new k))).
  { unfold sc, Rmax. destruct (Rltb_spec (Rabs (zn 0 new k)) 1), (Rle_dec 1 (Rabs (zn 0 new k))); lra. }
  assert (Ps : 1 <= sc) by (rewrite Es; apply Rmax_l).
  set (q := Rabs (zn 0 new k - zn 0 cur k) / sc).
  assert (Q : Rabs (zn 0 new k - zn 0 cur k) = q * sc) by (unfold q; field; lra).
  assert (Mono : forall l1 l2 a b, l1 <= l2 -> near l1 a b -> near l2 a b).
  { intros l1 l2 a b H12 H. unfold near in *. pose proof (Rmax_l 1 (Rabs a)). nra. }
  destruct (Rltb_spec l q) as [X|X].
  - split; [lra|]. intros i Hi. destruct (Z.eq_dec i k) as [->|]; [unfold near; rewrite <- Es, Q; lra|]. apply (Mono l); [lra|apply V; lia].
  - split; [lra|]. intros i Hi. destruct (Z.eq_dec i k) as [->|]; [unfold near; rewrite <- Es, Q; nra|]. apply V; lia.
Qed.
Definition near_opt (tol : R) (n : Z) (new : option arr) (cur : Z -> R) : Prop :=
  match new with Some a => forall i, (0 <= i < n)%Z -> near tol (zn 0 a i) (cur i) | None => True end.
Lemma near_mono l1 l2 a b : l1 <= l2 -> near l1 a b -> near l2 a b.
Proof. intros H12 H. unfold near in *. pose proof (Rmax_l 1 (Rabs a)). nra. Qed.
Lemma homotopyLength_exact n (s : qpb N) l0 l1 (gn : arr) lbn ubn : qwf n s l0 l1 -> (n <= zlen gn)%Z -> olen (N := N) n lbn -> olen (N := N) n ubn ->
  wp (getRelativeHomotopyLength (N := N) gn lbn ubn s) (fun len => (forall i, (0 <= i < n)%Z -> near len (zn 0 gn i) (gv s i)) /\
    near_opt len n lbn (lv s) /\ near_opt len n ubn (uv s)).
Proof.
  intros W Hg Hl Hu. unfold getRelativeHomotopyLength. rewrite (w_nv _ _ _ _ W). pose proof (w_n _ _ _ _ W) as Hn.
  pose proof (w_g _ _ _ _ W) as Wg. pose proof (w_lb _ _ _ _ W) as Wl. pose proof (w_ub _ _ _ _ W) as Wu. rcar.
  apply wp_bind. eapply wp_mono; [apply (homLen1_exact n gn (q_g s)); rcar; lia|]. intros a (_ & Va).
  apply wp_bind. eapply wp_mono with (P := fun b : R => a <= b /\ near_opt b n lbn (lv s)).
  { destruct lbn as [ln|]; [|cbn; split; [lra|exact I]]. unfold olen in Hl. rcar. eapply wp_mono; [apply (homLen1_exact n ln (q_lb s)); rcar; lia|]. auto. }
  intros b (Lab & Vb). destruct ubn as [un|].
  - unfold olen in Hu. rcar. eapply wp_mono; [apply (homLen1_exact n un (q_ub s)); rcar; lia|]. intros c (Lbc & Vc). split; [|split].
    + intros i Hi. apply (near_mono a); [lra|now apply Va].
    + destruct lbn; [|exact I]. intros i Hi. apply (near_mono b); [lra|now apply Vb].
    + exact Vc.
  - cbn [wp]. split; [|split; [exact Vb|exact I]]. intros i Hi. apply (near_mono a); [lra|now apply Va].
Qed.

(** ** The step *)
(** one variable *)
Lemma step_low del e t x dx l dl epsDen : 0 < t <= 1 -> 0 < epsDen <= e -> 0 <= del -> l - del <= x ->
  (epsDen <= dl - dx -> t * (dl - dx) <= Rmax (x - l) 0) -> l + t * dl - (del + e) <= x + t * dx.
Proof.
  intros Ht He Hd Hx Hb. destruct (Rle_dec epsDen (dl - dx)) as [B|B].
  - specialize (Hb B). assert (0 < t * (dl - dx)) by (apply Rmult_lt_0_compat; lra). unfold Rmax in Hb. destruct (Rle_dec (x - l) 0); [lra|].
    replace (t * (dl - dx)) with (t * dl - t * dx) in Hb by ring. lra.
  - assert (t * (dl - dx) <= e).
    { destruct (Rle_dec 0 (dl - dx)); [|assert (t * (dl - dx) <= t * 0) by (apply Rmult_le_compat_l; lra); lra]. apply Rle_trans with (1 * (dl - dx)); [apply Rmult_le_compat_r; lra|lra]. }
    replace (t * (dl - dx)) with (t * dl - t * dx) in H by ring. lra.
Qed.
Lemma step_up del e t x dx u du epsDen : 0 < t <= 1 -> 0 < epsDen <= e -> 0 <= del -> x <= u + del ->
  (epsDen <= dx - du -> t * (dx - du) <= Rmax (u - x) 0) -> x + t * dx <= u + t * du + (del + e).
Proof.
  intros Ht He Hd Hx Hb. pose proof (step_low del e t (- x) (- dx) (- u) (- du) epsDen Ht He Hd ltac:(lra)) as H.
  replace (- du - - dx) with (dx - du) in H by ring. replace (- x - - u) with (u - x) in H by ring. specialize (H Hb). lra.
Qed.
(** a fixed variable: [w] is the bound it sits on, [v] the other one, seen from below ([sg] = 1) or above *)
Lemma step_fix del e t (isZ : bool) x w dw v dv : 0 < t <= 1 -> 0 <= eps <= e -> w - del <= x <= w + del -> x <= v + del ->
  (isZ = true -> Rabs dw <= eps /\ Rabs dv <= eps) -> w + dw <= v + dv + eps ->
  let x' := x + t * (if isZ then 0 else dw) in
  (w + t * dw) - (del + e) <= x' <= (w + t * dw) + (del + e) /\ x' <= v + t * dv + (del + e).
Proof.
  intros Ht He Hx Hv Z C x'. unfold x'. destruct isZ.
  - destruct (Z eq_refl) as (Zw & Zv). assert (A : forall a, Rabs a <= eps -> - e <= t * a <= e).
    { intros a Ha. pose proof (Rle_abs a). pose proof (Rle_abs (- a)) as Q. rewrite Rabs_Ropp in Q. split; nra. }
    pose proof (A dw Zw). pose proof (A dv Zv). lra.
  - split; [lra|]. assert ((1 - t) * (x - v) <= (1 - t) * del) by (apply Rmult_le_compat_l; lra).
    assert (t * (x - w + (w + dw) - (v + dv)) <= t * (del + eps)) by (apply Rmult_le_compat_l; lra).
    assert (t * eps <= eps) by nra. nra.
Qed.
Lemma step_mult del e t y dy epsDen : 0 < t <= 1 -> 0 < epsDen <= e -> 0 <= del -> - del <= y ->
  (epsDen <= - dy -> t * - dy <= y) -> - (del + e) <= y + t * dy.
Proof.
  intros Ht He Hd Hy Hb. destruct (Rle_dec epsDen (- dy)) as [B|B]; [specialize (Hb B); lra|].
  destruct (Rle_dec 0 (- dy)).
  - assert (t * - dy <= 1 * - dy) by (apply Rmult_le_compat_r; lra). lra.
  - assert (t * - dy <= t * 0) by (apply Rmult_le_compat_l; lra). lra.
Qed.

Section Step.
Variable junk : Z -> arr.
Hypothesis J : junk_ok (N := N) junk.

Lemma stepIdx_exact (l idx : list Z) il (t : R) (dx x : arr) n : il_rep il l -> idx = il_number il -> (forall v, In v l -> (0 <= v < n)%Z) -> zlen x = n -> (zlen l <= zlen dx)%Z ->
  wp (stepIdx (N := N) (zlen l) idx t dx x) (fun x' : arr => zlen x' = n /\
    (forall p, (0 <= p < zlen l)%Z -> zn 0 x' (zz l p) = zn 0 x (zz l p) + t * zn 0 dx p) /\
    (forall k, (0 <= k)%Z -> ~ In k l -> zn 0 x' k = zn 0 x k)).
Proof.
  intros Rp -> I0 Lx Ld. unfold stepIdx. apply (wp_scatter (0:R) (fun i v => v + t * zn 0 dx i) l); auto.
  - exact (rep_NoDup _ _ Rp).
  - intros k Hk. rcar. rewrite Lx. now apply I0.
  - intros i a Hi La. rewrite (rd_rep _ l) by auto. cbn [bind]. assert (0 <= zn 0%Z l i < n)%Z by (apply I0, zn_In, Hi).
    rdx. rdx. apply wr_ok. rcar; lia.
  - intros a La V K. split; [rcar; congruence|]. auto.
Qed.
Lemma stepAll_exact n (t : R) (dx x : arr) : (0 <= n)%Z -> zlen x = n -> zlen dx = n ->
  wp (stepAll (N := N) n t dx x) (fun x' : arr => zlen x' = n /\ forall i, (0 <= i < n)%Z -> zn 0 x' i = zn 0 x i + t * zn 0 dx i).
Proof.
  intros Hn Lx Ld. unfold stepAll. apply (wp_map (0:R) (fun i v => v + t * zn 0 dx i)); [rcar; lia| |].
  - intros i a Hi La. rdx. rdx. apply wr_ok. rcar; lia.
  - intros a La V _. split; [rcar; congruence|exact V].
Qed.
End Step.
End X8.
