(** Adding a constraint keeps both factorisations exact. *)
From Verif Require Import Base Types Num Options Indexlist IndexlistProofs Loops RSum LinSpec SafeLib SubjectTo SubjectToProofs SubjectToProofs2
  Flipper PropFlipper Matrices MatLib MatSafe LinAlg PropLinAlg QProblemB QPBSafe QPBX1 QPBX2 QPBX3 QProblem QPX1 QPX2 QPX3 QPX4.
Local Open Scope R_scope.

Lemma rsum_sq_nz m (f : Z -> R) i : (0 <= i < m)%Z -> f i <> 0 -> rsum 0 m (fun q => f q * f q) <> 0.
Proof. intros Hi Nf E. apply Nf. assert (f i * f i = 0); [|nra]. apply (rsum_nonneg_0 0 m (fun q => f q * f q)); auto. intros; nra. Qed.

Lemma bind_bind {A B C} (m : res A) (f : A -> res B) (g : B -> res C) : bind (bind m f) g = bind m (fun x => bind (f x) g).
Proof. destruct m; reflexivity. Qed.

Section X5.
Variables eps zero infty : R.
Notation N := (RNumT eps zero infty).
Notation arr := (list R).
Hypothesis zero_0 : zero = 0.
Variable junk : Z -> arr.
Hypothesis J : junk_ok (N := N) junk.

Notation pwf := (pwf eps zero infty).

Lemma rep_rd (b : subjectTo) l0 l1 : st_wf b l0 l1 -> forall k, (0 <= k < zlen l0)%Z -> rd (il_number (st_ina b)) k = Ok (zn 0%Z l0 k).
Proof. intros W k Hk. apply rd_rep; [exact (wf_ina _ _ _ W)|exact Hk]. Qed.

Lemma rinv_shrink n nz l Hm (Q Ra : arr) M : (0 < nz <= n)%Z -> gram (nz - 1) (triu Ra n) M -> posdef nz M ->
  (forall a b, (0 <= a < nz - 1)%Z -> (0 <= b < nz - 1)%Z -> zhz l Hm (ce n Q) a b = M a b) ->
  subz n Ra -> rinv n (nz - 1) l Hm Q Ra.
Proof.
  intros Hz G P E S. assert (G' : gram (nz - 1) (triu Ra n) (zhz l Hm (ce n Q))) by (intros a b Ha Hb; rewrite E by lia; apply G; lia).
  split; [|exact S]. split; [exact G'|]. intros i Hi. rewrite <- triu_diag.
  apply (gram_diag (nz - 1) (triu Ra n) M); auto; [apply triu_upper|].
  intros x (j & Hj & Nx). set (y := fun j => if (j <? nz - 1)%Z then x j else 0).
  assert (Q1 : quad (nz - 1) M x = quad nz M y).
  { assert (QE : forall f, rsum 0 nz f = rsum 0 (nz - 1) f + f (nz - 1)%Z) by (intros f; replace nz with (nz - 1 + 1)%Z at 1 by lia; now rewrite rsum_last by lia).
    assert (Y0 : y (nz - 1)%Z = 0) by (unfold y; destruct (Z.ltb_spec (nz - 1) (nz - 1)); [lia|reflexivity]).
    unfold quad. rewrite (QE (fun i => rsum 0 nz (fun j => y i * M i j * y j))).
    rewrite (rsum_0 0 nz (fun j => y (nz - 1)%Z * M (nz - 1)%Z j * y j)); [|intros; rewrite Y0; ring]. rewrite Rplus_0_r.
    apply rsum_ext. intros a Ha. rewrite QE. rewrite Y0, Rmult_0_r, Rplus_0_r.
    apply rsum_ext. intros b Hb. unfold y. destruct (Z.ltb_spec a (nz - 1)), (Z.ltb_spec b (nz - 1)); try lia. reflexivity. }
  rewrite Q1. apply P. exists j. split; [lia|]. unfold y. destruct (Z.ltb_spec j (nz - 1)); [exact Nx|lia].
Qed.

Lemma addConstraint_update_ok n m Am Hm (s : qp N) l0 l1 k0 k1 number v updC :
  pwf n m Am s l0 l1 k0 k1 -> In number k0 -> is_active v = true -> tqf n (p_sizeT s) l0 k1 Am (p_Q s) (p_T s) ->
  (exists p, (0 <= p < zlen l0 - zlen k1)%Z /\ comb l0 (Am number) (ce n (p_Q s)) p <> 0) ->
  (updC && plainH (p_b s) = true -> rinv n (zlen l0 - zlen k1) l0 Hm (p_Q s) (q_R (p_b s))) ->
  wp (addConstraint_update (N := N) junk number v updC s) (fun '(r, s') => r = SUCCESSFUL_RETURN /\
    exists c T Q Ra, s' = set_p_cons c (set_p_T T (set_p_Q Q (up_b (set_q_R Ra) s))) /\ same_meta (p_cons s) c /\ st_status c = zupd (st_status (p_cons s)) number v /\
      pwf n m Am s' l0 l1 (spec_remove k0 number) (k1 ++ [number]) /\ tqf n (p_sizeT s) l0 (k1 ++ [number]) Am Q T /\
      (updC && plainH (p_b s) = false -> Ra = q_R (p_b s)) /\
      (updC && plainH (p_b s) = true -> rinv n (zlen l0 - zlen k1 - 1) l0 Hm Q Ra)).
Proof.
  intros W Hin Hv (LE & OQ & TQ & TD) (p0 & Hp0 & Np0) RI. destruct (pw_A _ _ _ _ _ _ _ _ _ _ _ W) as (M & EA & OA).
  assert (ZN : 0 <= zero) by lra.
  pose proof (pw_n _ _ _ _ _ _ _ _ _ _ _ W) as En. pose proof (pw_m _ _ _ _ _ _ _ _ _ _ _ W) as Em.
  pose proof (pw_b _ _ _ _ _ _ _ _ _ _ _ W) as Wb. pose proof (pw_c _ _ _ _ _ _ _ _ _ _ _ W) as Wc.
  pose proof (pw_Q _ _ _ _ _ _ _ _ _ _ _ W) as LQ. pose proof (pw_R _ _ _ _ _ _ _ _ _ _ _ W) as LR.
  pose proof (pw_T _ _ _ _ _ _ _ _ _ _ _ W) as LT. pose proof (pw_sT _ _ _ _ _ _ _ _ _ _ _ W) as EsT.
  unfold pV in En. unfold pC in Em.
  destruct (range_b _ _ _ Wb) as (Rg0 & Rg1). destruct (range_b _ _ _ Wc) as (Rk0 & Rk1). destruct (len_b _ _ _ Wb) as (Ln0 & _). destruct (len_b _ _ _ Wc) as (Lk0 & Lk1).
  rewrite En in *. rewrite Em in *.
  assert (ND : NoDup l0) by exact (rep_NoDup _ _ (wf_ina _ _ _ Wb)).
  assert (EF : pFR s = zlen l0) by exact (rep_len _ _ (wf_ina _ _ _ Wb)). assert (EC : pAC s = zlen k1) by exact (rep_len _ _ (wf_act _ _ _ Wc)).
  set (nfr := zlen l0) in *. set (nac := zlen k1) in *. set (sT := p_sizeT s) in *.
  assert (N0 : (0 <= nac)%Z) by apply zlen_nonneg. assert (NF : (0 <= nfr)%Z) by apply zlen_nonneg.
  assert (Lk : (nac < m)%Z).
  { apply (NoDup_len_lt m k1 number); [now apply Rk0|exact (rep_NoDup _ _ (wf_act _ _ _ Wc))|exact Rk1|].
    intros X. apply (wf_in0 _ _ _ Wc) in Hin as (_ & E1). apply (wf_in1 _ _ _ Wc) in X as (_ & E2). rewrite E1 in E2. discriminate. }
  assert (SZ : (nac < sT)%Z) by lia.
  unfold addConstraint_update. unfold pZ. rewrite EF, EC. unfold p_theA. rewrite EA. cbn [bind].
  change (pV s) with (st_n (p_bounds s)). rewrite En.
  destruct (am_row _ _ _ _ _ _ _ OA number (p_free s) l0 (junk nfr)) as (aFR & Ea & La & Va); [exact (wf_ina _ _ _ Wb)|exact Rg0|now apply Rk0|rewrite J; fold nfr; lia|].
  rewrite Ea. cbn [bind]. rewrite J in La by lia. fold nfr in Va.
  assert (RD : forall k, (0 <= k < nfr)%Z -> rd (p_FR s) k = Ok (zn 0%Z l0 k)) by (intros k Hk; now apply (rep_rd _ _ _ Wb)).
  assert (RV : forall k, (0 <= k < nfr)%Z -> (0 <= zn 0 l0 k < n)%Z) by (intros; apply Rg0, zn_In; fold nfr; lia).
  assert (CMB : forall q, rsum 0 nfr (fun i => zn 0 aFR i * ce n (p_Q s) (zn 0%Z l0 i) q) = comb l0 (Am number) (ce n (p_Q s)) q).
  { intros q. unfold comb. rewrite <- rsum_list. fold nfr. apply rsum_ext. intros i Hi. now rewrite Va by lia. }
  apply wp_bind. apply (wp_acc (nfr - nac) 0 nfr _ (fun i j => zn 0 aFR i * ce n (p_Q s) (zn 0%Z l0 i) j)); try lia.
  { unfold zeros. rewrite zlen_repeat. lia. }
  { intros i w Hi Lw. rewrite RD by lia. cbn [bind]. rcar. rewrite (rd_ok 0) by (rewrite La; lia). cbn [bind].
    eapply wp_mono; [apply (acc_row (fun j => j) n (nfr - nac) 0 (zn 0%Z l0 i) 0 (zn 0 aFR i) (p_Q s) w); auto; try lia; rewrite Lw; unfold zeros; rewrite zlen_repeat; lia|].
    intros w' (L' & V' & U'). split; [now rewrite L'|]. split; [exact V'|exact U']. }
  intros wZ LwZ VwZ _. unfold zeros in LwZ, VwZ. rewrite zlen_repeat in LwZ.
  assert (WZ : forall q, (0 <= q < nfr - nac)%Z -> zn 0 wZ q = comb l0 (Am number) (ce n (p_Q s)) q).
  { intros q Hq. specialize (VwZ q Hq). rewrite Z.add_0_l in VwZ. rewrite VwZ, zn_repeat by lia. rnum. rewrite Rplus_0_l. apply CMB. }
  clear VwZ. apply wp_bind.
  refine (wp_any _ (fun T : arr => zlen T = zlen (p_T s) /\ (forall j, (0 <= j < nac)%Z -> te sT T nac (sT - nac + j) = comb l0 (Am number) (ce n (p_Q s)) (nfr - nac + j)) /\
           (forall i j, (0 <= i < nac)%Z -> (0 <= j < sT)%Z -> te sT T i j = te sT (p_T s) i j)) _ _ _).
  { destruct (Z.ltb_spec 0 nac) as [Hn|Hn]; [|apply wp_ok; split; [reflexivity|]; split; [intros; lia|reflexivity]].
    assert (SZ2 : (nac * sT + sT <= sT * sT)%Z) by nia.
    rcar. apply wp_bind. destruct (fill_loop 0 (fun j (T : arr) => wr T (nac * sT + (sT - nac + j)) (n0 (N := N))) (fun _ _ => 0) (nac * sT + (sT - nac)) 0 nac (p_T s)) as (T1 & E1 & L1 & V1); [lia|fold sT in LT; rcar; nia| |].
    { intros j T' Hj LT'. fold sT in LT; rcar. rewrite wr_ok by nia. rnum. f_equal. f_equal. lia. }
    match goal with |- wp ?m _ => replace m with (Ok T1) by (symmetry; exact E1) end. apply wp_ok.
    apply (wp_acc nac (nac * sT + (sT - nac)) nfr _ (fun i j => zn 0 aFR i * ce n (p_Q s) (zn 0%Z l0 i) (nfr - nac + j))); try nia.
    { intros i T2 Hi L2. rewrite RD by lia. cbn [bind]. rewrite (rd_ok 0) by lia. cbn [bind].
      pose proof (acc_row (fun j => nac * sT + (sT - nac + j))%Z n nac (nac * sT + (sT - nac)) (zn 0%Z l0 i) (nfr - nac) (zn 0 aFR i) (p_Q s) T2 ltac:(intros; cbv beta; ring) LQ ltac:(auto) ltac:(lia) ltac:(lia) ltac:(lia) ltac:(nia) ltac:(rewrite L2, L1; fold sT in LT; rcar; nia)) as A.
      rewrite L2 in A. exact A. }
    intros T2 L2 V2 U2. split; [now rewrite L2|]. fold sT in LT; rcar. split.
    - intros j Hj. unfold te. rewrite Z.add_assoc, V2 by lia. rewrite V1 by nia.
      destruct (Z.leb_spec (nac * sT + (sT - nac) + 0) (nac * sT + (sT - nac) + j)), (Z.ltb_spec (nac * sT + (sT - nac) + j) (nac * sT + (sT - nac) + nac)); try lia. cbn [andb].
      rewrite Rplus_0_l. apply CMB.
    - intros i j Hi Hj. unfold te. rewrite U2 by nia. rewrite V1 by nia. destruct (Z.leb_spec (nac * sT + (sT - nac) + 0) (i * sT + j)); [nia|reflexivity]. }
  intros T1 (LT1 & TN & TO).
  destruct (Z.ltb_spec 0 (nfr - nac)) as [Hz|]; [|lia]. rewrite bind_bind.
  apply wp_bind. eapply wp_mono.
  { apply (zRotations_ok eps zero infty ZN n (p_FR s) l0 nfr (nfr - nac) (updC && plainH (p_b s)) wZ (p_Q s) (q_R (p_b s)) (Am number) Hm); auto; try lia.
    intros U. destruct (RI U) as ((G & _) & S). auto. }
  intros [[w Q] Ra] ZI. cbv beta iota zeta. rewrite !bind_bind. rewrite (rd_ok 0) by (rewrite (zi_w _ _ _ _ _ _ _ _ _ _ _ _ _ _ _ ZI); lia). cbn [bind].
  fold sT in LT; rcar. assert (SZ2 : (nac * sT + sT <= sT * sT)%Z) by nia.
  rewrite bind_bind. rewrite wr_ok by (rewrite LT1; nia). cbn [bind]. set (T2 := zupd T1 (nac * sT + (sT - nac - 1)) (zn 0 w (nfr - nac - 1))).
  assert (TV : forall i j, (0 <= i < sT)%Z -> (0 <= j < sT)%Z -> te sT T2 i j = if ((i =? nac) && (j =? sT - nac - 1))%Z then zn 0 w (nfr - nac - 1) else te sT T1 i j).
  { intros i j Hi Hj. unfold T2. apply te_upd; try lia. }
  assert (TQF : tqf n sT l0 (k1 ++ [number]) Am Q T2).
  { destruct ZI. assert (ELN : zlen (k1 ++ [number]) = (nac + 1)%Z) by (rewrite zlen_app; reflexivity).
    assert (WN : zn 0 w (nfr - nac - 1) <> 0).
    { intros Z0. assert (NN : rsum 0 (nfr - nac) (fun q => zn 0 wZ q * zn 0 wZ q) <> 0) by (apply (rsum_sq_nz _ _ p0); [lia|]; now rewrite WZ).
      apply NN. rewrite <- zi_norm. apply rsum_0. intros q Hq. destruct (Z.eq_dec q (nfr - nac - 1)) as [->|]; [rewrite Z0; ring|]. rewrite zi_zero by (auto; lia). ring. }
    split; [rewrite ELN; fold nfr; lia|]. split; [fold nfr; exact zi_orth|]. rewrite ELN. fold nfr. split.
    - intros i p Hi Hp. destruct (Z.eq_dec i nac) as [->|Ni].
      + replace (zn 0%Z (k1 ++ [number]) nac) with number by (rewrite zn_app2 by (fold nac; lia); fold nac; now replace (nac - nac)%Z with 0%Z by lia).
        destruct (Z.leb_spec (nfr - 1) (nac + p)) as [Lp|Lp].
        * rewrite TV by lia. rewrite Z.eqb_refl. cbn [andb]. destruct (Z.eqb_spec (sT - nfr + p) (sT - nac - 1)) as [Ep|Ep].
          -- replace p with (nfr - nac - 1)%Z by lia. symmetry. apply zi_wa. lia.
          -- replace (sT - nfr + p)%Z with (sT - nac + (p - (nfr - nac)))%Z by lia. rewrite TN by lia. replace (nfr - nac + (p - (nfr - nac)))%Z with p by lia.
             apply comb_ext. intros u Hu. apply zi_cols; auto. lia.
        * rewrite <- zi_wa by lia. apply zi_zero; auto. lia.
      + replace (zn 0%Z (k1 ++ [number]) i) with (zn 0%Z k1 i) by (now rewrite zn_app1 by (fold nac; lia)).
        destruct (Z_lt_le_dec p (nfr - nac)) as [Lp|Lp].
        * destruct (Z.leb_spec (nfr - 1) (i + p)); [lia|]. apply zi_ker; [|lia]. intros q Hq. rewrite TQ by lia. destruct (Z.leb_spec (nfr - 1) (i + q)); [lia|reflexivity].
        * transitivity (comb l0 (Am (zn 0%Z k1 i)) (ce n (p_Q s)) p); [apply comb_ext; intros u Hu; apply zi_cols; auto; lia|].
          rewrite TQ by lia. destruct (Z.leb_spec (nfr - 1) (i + p)); [|reflexivity]. rewrite TV by lia. destruct (Z.eqb_spec i nac); [lia|]. cbn [andb]. symmetry. apply TO; lia.
    - intros i Hi. rewrite TV by lia. destruct (Z.eq_dec i nac) as [->|Ni].
      + rewrite Z.eqb_refl. destruct (Z.eqb_spec (sT - 1 - nac) (sT - nac - 1)); [|lia]. exact WN.
      + destruct (Z.eqb_spec i nac); [lia|]. cbn [andb]. rewrite TO by lia. apply TD. lia. }
  assert (RR : wp (if updC && plainH (p_b s) then restoreR (N := N) n (nfr - nac) Ra else Ok Ra) (fun R2 => zlen R2 = zlen (q_R (p_b s)) /\
      (updC && plainH (p_b s) = false -> R2 = q_R (p_b s)) /\ (updC && plainH (p_b s) = true -> rinv n (nfr - nac - 1) l0 Hm Q R2))).
  { destruct (updC && plainH (p_b s)) eqn:EU.
    - assert (LRa : zlen Ra = (n * n)%Z) by (rewrite (zi_R _ _ _ _ _ _ _ _ _ _ _ _ _ _ _ ZI); exact LR).
      eapply wp_mono; [apply (restoreR_ok eps zero infty ZN n (nfr - nac) Ra (zhz l0 Hm (ce n Q))); auto; [lia|exact (zi_gram _ _ _ _ _ _ _ _ _ _ _ _ _ _ _ ZI eq_refl)]|].
      intros R2 (L2 & G2 & S2 & C2 & O2). split; [rewrite L2; exact (zi_R _ _ _ _ _ _ _ _ _ _ _ _ _ _ _ ZI)|]. split; [discriminate|]. intros _.
      destruct (RI eq_refl) as ((G & D) & S). apply (rinv_shrink n (nfr - nac) l0 Hm Q R2 (zhz l0 Hm (ce n Q))); auto; try lia.
      + apply (zi_pd _ _ _ _ _ _ _ _ _ _ _ _ _ _ _ ZI). apply (gram_posdef _ (triu (q_R (p_b s)) n)); auto; [apply triu_upper|]. intros i Hi. rewrite triu_diag. auto.
      + intros p Hp Hp1. destruct (Z_lt_le_dec (p + 1) (nfr - nac)); [apply S2; lia|]. rewrite O2 by lia. apply (zi_sub _ _ _ _ _ _ _ _ _ _ _ _ _ _ _ ZI eq_refl); lia.
    - apply wp_ok. split; [exact (zi_R _ _ _ _ _ _ _ _ _ _ _ _ _ _ _ ZI)|]. split; [|discriminate]. intros _. exact (zi_same _ _ _ _ _ _ _ _ _ _ _ _ _ _ _ ZI eq_refl). }
  apply wp_bind. apply wp_bind. eapply wp_mono; [exact RR|]. intros R2 (L2 & F2 & I2). apply wp_ok. cbv beta iota.
  destruct (activate_ok (p_cons s) k0 k1 number v Wc Hin Hv) as (c & Ec & Wc' & SM & SS). rewrite Ec. cbn [bind]. apply wp_ok. split; [reflexivity|].
  exists c, T2, Q, R2. split; [reflexivity|]. split; [exact SM|]. split; [exact SS|]. split; [|split; [exact TQF|split; [exact F2|exact I2]]].
  constructor; auto.
  - change (st_n c = m). rewrite <- Em. destruct SM as (-> & _). reflexivity.
  - exact (eq_trans (zi_Q _ _ _ _ _ _ _ _ _ _ _ _ _ _ _ ZI) LQ).
  - exact (eq_trans L2 LR).
  - change (zlen T2 = (sT * sT)%Z). unfold T2. rewrite zlen_zupd. now rewrite LT1.
  - exists M. auto.
Qed.
End X5.
