(** Removing a constraint keeps both factorisations exact. *)
From Verif Require Import Base Types Num Options Indexlist IndexlistProofs Loops RSum LinSpec SafeLib SubjectTo SubjectToProofs SubjectToProofs2
  Flipper PropFlipper Matrices MatLib MatSafe LinAlg PropLinAlg QProblemB QPBSafe QPBSafe2 QPBX1 QPBX2 QPBX3 QPBX4 QProblem QPX1 QPX2 QPX3 QPX4 QPX5 QPX7 QPX8.
Local Open Scope R_scope.

Lemma zhz_sym n l M F a b : symm_on n M -> (forall v, In v l -> (0 <= v < n)%Z) -> zhz l M F a b = zhz l M F b a.
Proof.
  intros S RG. unfold zhz. rewrite lsum_swap. apply lsum_ext. intros u Hu. apply lsum_ext. intros v Hv. rewrite (S v u) by auto. ring.
Qed.

Section X9.
Variables eps zero infty : R.
Notation N := (RNumT eps zero infty).
Notation arr := (list R).
Hypothesis zero_0 : zero = 0.
Variable junk : Z -> arr.
Hypothesis J : junk_ok (N := N) junk.
Notation pwf := (pwf eps zero infty).
Notation pfl := (pfl eps zero infty).

(** the flipped state: everything but the status and the bounds of one constraint *)
Definition flippedC (s s' : qp N) (number : Z) : Prop :=
  exists c f lbA ubA axl axu,
    s' = set_p_lbA lbA (set_p_ubA ubA (set_p_Ax_l axl (set_p_Ax_u axu (set_p_cons c (up_b (fun b => set_q_htype HST_SEMIDEF (set_q_flip f b)) s))))) /\
    same_meta (p_cons s) c /\ st_status c = zupd (st_status (p_cons s)) number (flip (zs (st_status (p_cons s)) number)) /\ st_ina c = st_ina (p_cons s) /\ st_act c = st_act (p_cons s) /\
    (if is_sts (flip (zs (st_status (p_cons s)) number)) ST_LOWER
     then lbA = zupd (p_lbA s) number (zn 0 (p_ubA s) number) /\ ubA = p_ubA s /\ axl = zupd (p_Ax_l s) number (- zn 0 (p_Ax_u s) number) /\ axu = p_Ax_u s
     else lbA = p_lbA s /\ ubA = zupd (p_ubA s) number (zn 0 (p_lbA s) number) /\ axl = p_Ax_l s /\ axu = zupd (p_Ax_u s) number (- zn 0 (p_Ax_l s) number)).

Lemma flipConstraint_ok n m Am (s0 s : qp N) l0 l1 k0 k1 number : pwf n m Am s0 l0 l1 k0 k1 -> pfl n m s0 -> In number k1 ->
  (exists f Q T Ra, s = up_b (set_q_htype HST_SEMIDEF) (up_b (set_q_R Ra) (set_p_T T (set_p_Q Q (up_b (set_q_flip f) s0)))) /\ saved eps zero infty n m f s0 /\
     zlen Q = (n * n)%Z /\ zlen T = (Z.min n m * Z.min n m)%Z /\ zlen Ra = (n * n)%Z) ->
  wp (flipConstraint (N := N) number s) (fun '(r, s') => r = SUCCESSFUL_RETURN /\ flippedC s0 s' number /\ pwf n m Am s' l0 l1 k0 k1 /\ pfl n m s').
Proof.
  intros W F Hin (f & Q & T & Ra & Es & SV & LQ & LT & LR). unfold flipConstraint.
  rewrite (p_restore_ok eps zero infty n m s0 s) by (subst s; assumption). cbn [bind].
  pose proof (pw_c _ _ _ _ _ _ _ _ _ _ _ W) as Wc. pose proof (pw_m _ _ _ _ _ _ _ _ _ _ _ W) as Em. unfold pC in Em.
  match goal with |- context [set_p_T (p_T s0) ?u] => set (s1 := set_p_T (p_T s0) u) end.
  change (p_cons s1) with (p_cons s0).
  destruct (flip_ok KConstraints (p_cons s0) k0 k1 number Wc Hin) as (c & E & WC & Me & SE & EI & EA). rewrite E. cbn [bind].
  destruct (proj1 (wf_in1 _ _ _ Wc number) Hin) as (Ri & Ai). destruct (flip_active _ Ai) as (Af & Fo). rewrite Em in Ri.
  assert (GV : st_getStatus c number = Ok (flip (zs (st_status (p_cons s0)) number))).
  { rewrite (getStatus_ok c k0 k1); [|exact WC|destruct Me as (-> & _); rewrite Em; exact Ri].
    rewrite SE. f_equal. rewrite (zs_upd m); auto; [now rewrite Z.eqb_refl|]. rewrite (wf_stat _ _ _ Wc). exact Em. }
  rewrite GV. cbn [bind]. cbv zeta.
  pose proof F as [(g & Hg) F1 F2 F3 F4 F5 F6].
  assert (PW : forall lbA ubA axl axu, zlen lbA = m -> zlen ubA = m -> zlen axl = m -> zlen axu = m ->
     let s' := set_p_lbA lbA (set_p_ubA ubA (set_p_Ax_l axl (set_p_Ax_u axu (set_p_cons c (up_b (fun b => set_q_htype HST_SEMIDEF (set_q_flip f b)) s0))))) in
     pwf n m Am s' l0 l1 k0 k1 /\ pfl n m s').
  { intros lbA ubA axl axu H1 H2 H3 H4 s'. destruct W. destruct SV as (g' & Hg' & _). split; constructor; auto; try (exists g'; exact Hg').
    change (st_n c = m). rewrite <- Em. destruct Me as (-> & _). reflexivity. }
  destruct Fo as [Fo|Fo]; rewrite Fo.
  - change (p_ubA (set_p_cons c s1)) with (p_ubA s). change (p_lbA (set_p_cons c s1)) with (p_lbA s). change (p_Ax_u (set_p_cons c s1)) with (p_Ax_u s). change (p_Ax_l (set_p_cons c s1)) with (p_Ax_l s).
    replace (p_ubA s) with (p_ubA s0) by (subst s; reflexivity). replace (p_lbA s) with (p_lbA s0) by (subst s; reflexivity).
    replace (p_Ax_u s) with (p_Ax_u s0) by (subst s; reflexivity). replace (p_Ax_l s) with (p_Ax_l s0) by (subst s; reflexivity). rcar.
    rewrite (rd_ok 0) by lia. cbn [bind]. rewrite wr_ok by lia. cbn [bind]. rewrite (rd_ok 0) by lia. cbn [bind]. rewrite wr_ok by lia. cbn [bind]. apply wp_ok. split; [reflexivity|].
    match goal with |- flippedC _ ?u _ /\ _ => replace u with (set_p_lbA (N := N) (zupd (p_lbA s0) number (zn 0 (p_ubA s0) number)) (set_p_ubA (N := N) (p_ubA s0) (set_p_Ax_l (N := N) (zupd (p_Ax_l s0) number (- zn 0 (p_Ax_u s0) number)) (set_p_Ax_u (N := N) (p_Ax_u s0)
       (set_p_cons c (up_b (fun b => set_q_htype HST_SEMIDEF (set_q_flip f b)) s0)))))) by (subst s1 s; destruct s0 as [b0]; destruct b0; reflexivity) end.
    split; [|apply PW; rewrite ?zlen_zupd; auto].
    exists c, f, (zupd (p_lbA s0) number (zn 0 (p_ubA s0) number)), (p_ubA s0), (zupd (p_Ax_l s0) number (- zn 0 (p_Ax_u s0) number)), (p_Ax_u s0).
    split; [reflexivity|]. split; [exact Me|]. split; [now rewrite SE, Fo|]. split; [exact EI|]. split; [exact EA|]. rewrite Fo. change (is_sts ST_LOWER ST_LOWER) with true. cbn iota. auto.
  - change (p_ubA (set_p_cons c s1)) with (p_ubA s). change (p_lbA (set_p_cons c s1)) with (p_lbA s). change (p_Ax_u (set_p_cons c s1)) with (p_Ax_u s). change (p_Ax_l (set_p_cons c s1)) with (p_Ax_l s).
    replace (p_ubA s) with (p_ubA s0) by (subst s; reflexivity). replace (p_lbA s) with (p_lbA s0) by (subst s; reflexivity).
    replace (p_Ax_u s) with (p_Ax_u s0) by (subst s; reflexivity). replace (p_Ax_l s) with (p_Ax_l s0) by (subst s; reflexivity). rcar.
    rewrite (rd_ok 0) by lia. cbn [bind]. rewrite wr_ok by lia. cbn [bind]. rewrite (rd_ok 0) by lia. cbn [bind]. rewrite wr_ok by lia. cbn [bind]. apply wp_ok. split; [reflexivity|].
    match goal with |- flippedC _ ?u _ /\ _ => replace u with (set_p_lbA (N := N) (p_lbA s0) (set_p_ubA (N := N) (zupd (p_ubA s0) number (zn 0 (p_lbA s0) number)) (set_p_Ax_l (N := N) (p_Ax_l s0) (set_p_Ax_u (N := N) (zupd (p_Ax_u s0) number (- zn 0 (p_Ax_l s0) number))
       (set_p_cons c (up_b (fun b => set_q_htype HST_SEMIDEF (set_q_flip f b)) s0)))))) by (subst s1 s; destruct s0 as [b0]; destruct b0; reflexivity) end.
    split; [|apply PW; rewrite ?zlen_zupd; auto].
    exists c, f, (p_lbA s0), (zupd (p_ubA s0) number (zn 0 (p_lbA s0) number)), (p_Ax_l s0), (zupd (p_Ax_u s0) number (- zn 0 (p_Ax_l s0) number)).
    split; [reflexivity|]. split; [exact Me|]. split; [now rewrite SE, Fo|]. split; [exact EI|]. split; [exact EA|]. rewrite Fo. change (is_sts ST_UPPER ST_LOWER) with false. cbn iota. auto.
Qed.
Definition hmat (n : Z) (s : qp N) (Hm : Z -> Z -> R) : Prop := exists M, q_H (p_b s) = Some M /\ mat_ok eps zero infty n M Hm.

Lemma accP (n nz nfr : Z) FR (l : list Z) (Q w : arr) (h : Z -> R) : zlen Q = (n * n)%Z -> (forall v, In v l -> (0 <= v < n)%Z) -> zlen l = nfr -> (0 <= nz <= n)%Z ->
  (forall k, (0 <= k < nfr)%Z -> rd FR k = Ok (zn 0%Z l k)) -> forall body, (forall j, (0 <= j < nfr)%Z -> body j = Ok (h j)) ->
  wp (for_up 0 nfr (fun j a => jj <- rd FR j ;; hv <- body j ;; for_up 0 nz (fun i a => v <- rd a i ;; q <- rd Q (jj + n * i) ;; wr a i (v + q * hv)) a) (zeros (N := N) nz))
     (fun a => zlen a = nz /\ forall i, (0 <= i < nz)%Z -> zn 0 a i = rsum 0 nfr (fun j => ce n Q (zn 0%Z l j) i * h j)).
Proof.
  intros LQ RG El Hz RD body BD. pose proof (zlen_nonneg l).
  apply (wp_acc nz 0 nfr _ (fun j i => ce n Q (zn 0%Z l j) i * h j)); try lia.
  { unfold zeros. rewrite zlen_repeat. lia. }
  { intros j a Hj La. rewrite RD by lia. cbn [bind]. rewrite BD by lia. cbn [bind].
    assert (Hjj : (0 <= zn 0 l j < n)%Z) by (apply RG, zn_In; lia).
    assert (La' : zlen a = nz) by (rewrite La; unfold zeros; rewrite zlen_repeat; lia).
    destruct (fill_loop 0 (fun i a => v <- rd a i ;; q <- rd Q (zn 0%Z l j + n * i) ;; wr a i (v + q * h j)) (fun i v => v + ce n Q (zn 0%Z l j) i * h j) 0 0 nz a) as (w' & E & L & V); [lia|lia| |].
    - intros i u Hi Lu. rewrite (rd_ok 0) by lia. cbn [bind]. rewrite (rd_ok 0) by (apply (ce_in n Q n); lia). cbn [bind]. rewrite wr_ok by lia. now rewrite Z.add_0_l.
    - rewrite E. apply wp_ok. split; [congruence|]. split.
      + intros i Hi. rewrite V by lia. destruct (Z.leb_spec (0 + 0) (0 + i)), (Z.ltb_spec (0 + i) (0 + nz)); try lia. cbn [andb]. now replace (0 + i - 0)%Z with i by lia.
      + intros k Hk Hk'. rewrite V by lia. destruct (Z.ltb_spec k (0 + nz)); try lia. now rewrite andb_false_r. }
  intros w' L' V' _. unfold zeros in L', V'. rewrite zlen_repeat in L'. split; [lia|]. intros i Hi. specialize (V' i Hi). rewrite Z.add_0_l in V'. rewrite V', zn_repeat by lia. rnum. ring.
Qed.
Lemma storeRho_ok n nz (o : options N) allowFlip rho (Ra : arr) : (0 <= nz < n)%Z -> zlen Ra = (n * n)%Z ->
  exists d, storeRho (N := N) n nz o allowFlip false rho Ra = Ok d /\
    let fl := o_enableFlippingBounds o && allowFlip in
    match d with
    | DKeep R' => exists v, R' = zupd Ra (nz + n * nz) v /\ (fl = true -> o_epsFlipping o < rho /\ v = sqrt rho) /\ (fl = false -> 0 < rho -> v = sqrt rho) /\
        (fl = false -> rho <= 0 -> allowFlip = false /\ v = 100 * eps)
    | DFlip => fl = true /\ rho <= o_epsFlipping o
    | DBad => fl = false /\ allowFlip = true /\ rho <= 0
    | DNone => False
    end.
Proof.
  intros Hz LR. pose proof (ce_in n Ra (nz + 1) nz nz ltac:(lia) LR ltac:(lia) ltac:(lia)) as IN. unfold storeRho. rewrite andb_true_r. cbn [negb]. cbv zeta.
  destruct (o_enableFlippingBounds o && allowFlip) eqn:E.
  - rnum. destruct (Rltb_spec (o_epsFlipping o) rho) as [H|H].
    + rcar. rewrite wr_ok by exact IN. cbn [bind]. eexists. split; [reflexivity|]. exists (sqrt rho). split; [reflexivity|]. split; [auto|]. split; discriminate.
    + exists DFlip. split; [reflexivity|]. split; [reflexivity|lra].
  - rnum. destruct (Rltb_spec zero rho) as [H|H]; rewrite zero_0 in H.
    + rcar. rewrite wr_ok by exact IN. cbn [bind]. eexists. split; [reflexivity|]. exists (sqrt rho). split; [reflexivity|]. split; [discriminate|]. split; [auto|]. intros; lra.
    + destruct allowFlip; cbn [negb].
      * exists DBad. split; [reflexivity|]. split; [reflexivity|]. split; [reflexivity|lra].
      * rcar. rewrite wr_ok by exact IN. cbn [bind]. eexists. split; [reflexivity|]. cbv beta iota. eexists. split; [reflexivity|]. split; [discriminate|]. split; [intros; lra|]. intros _ _. split; [reflexivity|]. rnum. change (Rlit 1 2) with 100. reflexivity.
Qed.

Lemma removeConstraint_update_ok n m Am Hm (s : qp N) l0 l1 k0 k1 number updC allowFlip :
  pwf n m Am s l0 l1 k0 k1 -> pfl n m s -> In number k1 -> tqf n (p_sizeT s) l0 k1 Am (p_Q s) (p_T s) ->
  (updC && plainH (p_b s) = true -> symm_on n Hm /\ hmat n s Hm /\ rreg n (zlen l0 - zlen k1) (q_R (p_b s))) ->
  wp (removeConstraint_update (N := N) junk number (spec_pos k1 number) updC allowFlip None s) (fun '(r, s') =>
    let fac := factor n (zlen l0 - zlen k1) (q_R (p_b s)) (zhz l0 Hm (ce n (p_Q s))) in
    let upd := updC && plainH (p_b s) in let fl := o_enableFlippingBounds (p_opts s) && allowFlip in
    exists T Q Ra f rho,
      tqf n (p_sizeT s) l0 (spec_remove k1 number) Am Q T /\
      (forall v q, In v l0 -> (0 <= q < zlen l0 - zlen k1)%Z -> ce n Q v q = ce n (p_Q s) v q) /\
      (upd = true -> fac -> curvature (zlen l0 - zlen k1) (zhz l0 Hm (ce n Q)) rho) /\
      ((exists c, r = SUCCESSFUL_RETURN /\ s' = set_p_cons c (up_b (set_q_R (N := N) Ra) (set_p_T (N := N) T (set_p_Q (N := N) Q (up_b (set_q_flip f) s)))) /\
          same_meta (p_cons s) c /\ st_status c = zupd (st_status (p_cons s)) number ST_INACTIVE /\
          pwf n m Am s' l0 l1 (k0 ++ [number]) (spec_remove k1 number) /\ pfl n m s' /\
          (upd = false -> Ra = q_R (p_b s)) /\ (upd = true -> fac -> 0 < rho -> rinv n (zlen l0 - zlen k1 + 1) l0 Hm Q Ra) /\
          (upd = true -> fl = true -> o_epsFlipping (p_opts s) < rho) /\ (upd = true -> fl = false -> rho <= 0 -> allowFlip = false /\ ce n Ra (zlen l0 - zlen k1) (zlen l0 - zlen k1) = 100 * eps) /\
          (upd = true -> (fl = true -> 0 <= o_epsFlipping (p_opts s)) -> 0 < eps -> rreg n (zlen l0 - zlen k1 + 1) Ra) /\
          (upd = true -> forall p q, (0 <= p < zlen l0 - zlen k1)%Z -> (0 <= q < zlen l0 - zlen k1)%Z -> ce n Ra p q = ce n (q_R (p_b s)) p q)) \/
       (upd = true /\ fl = true /\ rho <= o_epsFlipping (p_opts s) /\ r = SUCCESSFUL_RETURN /\ flippedC s s' number /\ pwf n m Am s' l0 l1 k0 k1 /\ pfl n m s') \/
       (upd = true /\ fl = false /\ allowFlip = true /\ rho <= 0 /\ r = RET_HESSIAN_NOT_SPD))).
Proof.
  intros W F Hin TQ0 HU.
  pose proof (pw_n _ _ _ _ _ _ _ _ _ _ _ W) as En. pose proof (pw_m _ _ _ _ _ _ _ _ _ _ _ W) as Em.
  pose proof (pw_b _ _ _ _ _ _ _ _ _ _ _ W) as Wb. pose proof (pw_c _ _ _ _ _ _ _ _ _ _ _ W) as Wc.
  pose proof (pw_Q _ _ _ _ _ _ _ _ _ _ _ W) as LQ. pose proof (pw_R _ _ _ _ _ _ _ _ _ _ _ W) as LR.
  pose proof (pw_T _ _ _ _ _ _ _ _ _ _ _ W) as LT. pose proof (pw_sT _ _ _ _ _ _ _ _ _ _ _ W) as EsT.
  unfold pV in En. unfold pC in Em.
  destruct (range_b _ _ _ Wb) as (Rg0 & Rg1). destruct (range_b _ _ _ Wc) as (Rk0 & Rk1). destruct (len_b _ _ _ Wb) as (Ln0 & _). destruct (len_b _ _ _ Wc) as (Lk0 & Lk1).
  rewrite En in *. rewrite Em in *.
  assert (ND : NoDup l0) by exact (rep_NoDup _ _ (wf_ina _ _ _ Wb)).
  assert (EF : pFR s = zlen l0) by exact (rep_len _ _ (wf_ina _ _ _ Wb)). assert (EC : pAC s = zlen k1) by exact (rep_len _ _ (wf_act _ _ _ Wc)).
  set (nfr := zlen l0) in *. set (nac := zlen k1) in *. set (sT := p_sizeT s) in *.
  assert (N0 : (0 < nac)%Z).
  { pose proof (spec_pos_range k1 number). pose proof (proj2 (spec_pos_nonneg_In k1 number) Hin). unfold nac. lia. }
  assert (NF : (0 <= nfr)%Z) by apply zlen_nonneg. assert (LE : (nac <= nfr)%Z) by apply TQ0.
  set (fac := factor n (nfr - nac) (q_R (p_b s)) (zhz l0 Hm (ce n (p_Q s)))) in *.
  set (upd := updC && plainH (p_b s)) in *. set (fl := o_enableFlippingBounds (p_opts s) && allowFlip).
  unfold removeConstraint_update. unfold pZ. rewrite EF, EC. change (pV s) with (st_n (p_bounds s)). rewrite En. cbn [negb]. rewrite andb_true_r. fold fl.
  (* saving the state *)
  apply wp_bind. refine (wp_any _ (fun s1 => exists f, s1 = up_b (set_q_flip f) s /\ (exists g, holds (N := N) n m f g) /\ (fl = true -> saved eps zero infty n m f s)) _ _ _).
  { destruct fl.
    - destruct (p_save_ok eps zero infty junk J n m Am s l0 l1 k0 k1 W F) as (f & E & SV). rewrite E. apply wp_ok. exists f. split; [reflexivity|]. split; [|auto]. destruct SV as (g & Hg & _). eauto.
    - apply wp_ok. exists (q_flip (p_b s)). split; [destruct s as [b]; destruct b; reflexivity|]. split; [apply F|discriminate]. }
  intros s1 (f & -> & (g & Hg) & SV). set (s1 := up_b (set_q_flip f) s).
  change (p_FR s1) with (p_FR s). change (p_Q s1) with (p_Q s). change (p_T s1) with (p_T s). change (p_sizeT s1) with sT.
  assert (RD : forall k, (0 <= k < nfr)%Z -> rd (p_FR s) k = Ok (zn 0%Z l0 k)) by (intros k Hk; now apply (rep_rd _ _ _ Wb)).
  apply wp_bind. eapply wp_mono.
  { apply (removeRowT_ok eps zero infty zero_0 n (p_FR s) l0 k1 (spec_remove k1 number) number nfr nac (nfr - nac) sT (spec_pos k1 number) Am (p_Q s) (p_T s)); auto. lia. }
  intros [Q T] (LQ2 & LT2 & TQF & COL). cbv beta iota.
  assert (LQ3 : zlen Q = (n * n)%Z) by exact (eq_trans LQ2 LQ). assert (LT3 : zlen T = (sT * sT)%Z) by exact (eq_trans LT2 LT).
  set (s2 := set_p_T (N := N) T (set_p_Q (N := N) Q s1)).
  destruct (deactivate_ok (p_cons s) k0 k1 number Wc Hin) as (c & Ec & Wc' & SM & SS).
  (* moving the constraint *)
  assert (PW : forall Ra, zlen Ra = (n * n)%Z -> let s' := set_p_cons (N := N) c (up_b (set_q_R (N := N) Ra) s2) in pwf n m Am s' l0 l1 (k0 ++ [number]) (spec_remove k1 number) /\ pfl n m s').
  { intros Ra LRa s'. destruct W, F. split; constructor; auto; try (exists g; exact Hg). change (st_n c = m). rewrite <- Em. destruct SM as (-> & _). reflexivity. }
  assert (MV : forall Ra rho, zlen Ra = (n * n)%Z -> (upd = true -> fac -> curvature (nfr - nac) (zhz l0 Hm (ce n Q)) rho) ->
      (upd = false -> Ra = q_R (p_b s)) -> (upd = true -> fac -> 0 < rho -> rinv n (nfr - nac + 1) l0 Hm Q Ra) ->
      (upd = true -> fl = true -> o_epsFlipping (p_opts s) < rho) -> (upd = true -> fl = false -> rho <= 0 -> allowFlip = false /\ ce n Ra (nfr - nac) (nfr - nac) = 100 * eps) ->
      (upd = true -> (fl = true -> 0 <= o_epsFlipping (p_opts s)) -> 0 < eps -> rreg n (nfr - nac + 1) Ra) ->
      (upd = true -> forall p q, (0 <= p < nfr - nac)%Z -> (0 <= q < nfr - nac)%Z -> ce n Ra p q = ce n (q_R (p_b s)) p q) ->
      forall r s', r = SUCCESSFUL_RETURN -> s' = set_p_cons (N := N) c (up_b (set_q_R (N := N) Ra) s2) ->
      exists T Q Ra f rho,
      tqf n sT l0 (spec_remove k1 number) Am Q T /\
      (forall v q, In v l0 -> (0 <= q < nfr - nac)%Z -> ce n Q v q = ce n (p_Q s) v q) /\
      (upd = true -> fac -> curvature (nfr - nac) (zhz l0 Hm (ce n Q)) rho) /\
      ((exists c, r = SUCCESSFUL_RETURN /\ s' = set_p_cons c (up_b (set_q_R (N := N) Ra) (set_p_T (N := N) T (set_p_Q (N := N) Q (up_b (set_q_flip f) s)))) /\
          same_meta (p_cons s) c /\ st_status c = zupd (st_status (p_cons s)) number ST_INACTIVE /\
          pwf n m Am s' l0 l1 (k0 ++ [number]) (spec_remove k1 number) /\ pfl n m s' /\
          (upd = false -> Ra = q_R (p_b s)) /\ (upd = true -> fac -> 0 < rho -> rinv n (nfr - nac + 1) l0 Hm Q Ra) /\
          (upd = true -> fl = true -> o_epsFlipping (p_opts s) < rho) /\ (upd = true -> fl = false -> rho <= 0 -> allowFlip = false /\ ce n Ra (nfr - nac) (nfr - nac) = 100 * eps) /\
          (upd = true -> (fl = true -> 0 <= o_epsFlipping (p_opts s)) -> 0 < eps -> rreg n (nfr - nac + 1) Ra) /\
          (upd = true -> forall p q, (0 <= p < nfr - nac)%Z -> (0 <= q < nfr - nac)%Z -> ce n Ra p q = ce n (q_R (p_b s)) p q)) \/
       (upd = true /\ fl = true /\ rho <= o_epsFlipping (p_opts s) /\ r = SUCCESSFUL_RETURN /\ flippedC s s' number /\ pwf n m Am s' l0 l1 k0 k1 /\ pfl n m s') \/
       (upd = true /\ fl = false /\ allowFlip = true /\ rho <= 0 /\ r = RET_HESSIAN_NOT_SPD))).
  { intros Ra rho LRa H1 H2 H3 H4 H5 H6 H7 r s' -> ->. exists T, Q, Ra, f, rho. split; [exact TQF|]. split; [exact COL|]. split; [exact H1|]. left. exists c.
    split; [reflexivity|]. split; [reflexivity|]. split; [exact SM|]. split; [exact SS|]. destruct (PW Ra LRa) as (P1 & P2). auto 10. }
  change (p_b s2) with (p_b s1). change (plainH (p_b s1)) with (plainH (p_b s)). fold upd.
  destruct upd eqn:EU.
  2:{ change (p_cons s2) with (p_cons s). rewrite Ec. cbn [bind]. change (negb (SUCCESSFUL_RETURN =r? SUCCESSFUL_RETURN)) with false. cbn iota. apply wp_ok.
      apply (MV (q_R (p_b s)) 0); auto; try discriminate. }
  destruct (HU eq_refl) as (SY & (M & EM & MO) & (DG & SZ)). clear HU.
  change (p_FR s2) with (p_FR s). change (p_Q s2) with Q. change (p_free s2) with (p_free s). change (q_R (p_b s1)) with (q_R (p_b s)).
  assert (HnZ : (nfr - nac < n)%Z) by lia.
  assert (IQ : forall j q, (0 <= j < nfr)%Z -> (0 <= q < n)%Z -> (0 <= zn 0 l0 j + n * q < n * n)%Z).
  { intros j q Hj Hq. assert (0 <= zn 0 l0 j < n)%Z by (apply Rg0, zn_In; fold nfr; lia). nia. }
  apply wp_bind. apply (wp_fill 0 (fun j => ce n Q (zn 0%Z l0 j) (nfr - nac))); [rewrite J by lia; lia| |].
  { intros j z Hj Lz. rewrite RD by lia. cbn [bind]. rcar. rewrite (rd_ok 0) by (rewrite LQ3; apply IQ; lia). cbn [bind]. rewrite J in Lz by lia. now rewrite wr_ok by lia. }
  intros z Lz Vz _. rewrite J in Lz by lia.
  unfold q_theH. change (q_H (p_b s1)) with (q_H (p_b s)). rewrite EM. cbn [bind].
  destruct (mo_idxb _ _ _ _ _ _ MO (p_free s) l0 (p_free s) l0 n1 n0 z (junk nfr) nfr nfr) as (Hz & EHz & LHz & VHz & _);
    [exact (wf_ina _ _ _ Wb)|exact Rg0|exact (wf_ina _ _ _ Wb)|exact Rg0|now left|now left|fold nfr; rcar; lia|fold nfr; rewrite J; lia|lia|lia|].
  rewrite EHz. cbn [bind]. rewrite J in LHz by lia. fold nfr in VHz.
  assert (VH : forall p, (0 <= p < nfr)%Z -> zn 0 Hz p = lsum l0 (fun v => Hm (zn 0%Z l0 p) v * ce n Q v (nfr - nac))).
  { intros p Hp. rewrite VHz by lia. rnum. rewrite Rmult_0_l, Rplus_0_l, Rmult_1_l. rewrite <- rsum_list. apply rsum_ext. intros q Hq. now rewrite Vz by lia. }
  assert (ZZ : forall a, rsum 0 nfr (fun j => ce n Q (zn 0%Z l0 j) a * zn 0 Hz j) = zhz l0 Hm (ce n Q) a (nfr - nac)).
  { intros a. unfold zhz. rewrite <- rsum_list. fold nfr. apply rsum_ext. intros j Hj. rewrite VH by lia. rewrite <- lsum_scal. apply lsum_ext. intros; ring. }
  set (nz := (nfr - nac)%Z) in *.
  assert (EXT : forall (R1 : arr) (r : Z -> R), zlen R1 = (n * n)%Z -> (forall p, (0 <= p < nz)%Z -> matvec nz (utrans true (triu (q_R (p_b s)) n)) r p = zhz l0 Hm (ce n Q) p nz) ->
     (forall p q, (0 <= p < n)%Z -> (0 <= q < n)%Z -> ce n R1 p q = if ((q =? nz) && (p <? nz))%Z then r p else ce n (q_R (p_b s)) p q) ->
     let rho := zhz l0 Hm (ce n Q) nz nz - rsum 0 nz (fun k => r k * r k) in
     (forall v, v <> 0 -> rreg n (nz + 1) (zupd R1 (nz + n * nz) v)) /\
     (fac -> curvature nz (zhz l0 Hm (ce n Q)) rho /\ (0 < rho -> rinv n (nz + 1) l0 Hm Q (zupd R1 (nz + n * nz) (sqrt rho))))).
  { intros R1 r L1 SOL V1 rho.
    assert (IN : (0 <= nz + n * nz < zlen R1)%Z) by (apply (ce_in n R1 (nz + 1)); lia).
    assert (V2' : forall v p q, (0 <= p < n)%Z -> (0 <= q < n)%Z -> ce n (zupd R1 (nz + n * nz) v) p q = if ((p =? nz) && (q =? nz))%Z then v else if ((q =? nz) && (p <? nz))%Z then r p else ce n (q_R (p_b s)) p q).
    { intros v p q Hp Hq. rewrite ce_upd by lia. now rewrite V1 by lia. }
    split.
    { intros v Nv. split.
      - intros p Hp. rewrite V2' by lia. destruct (Z.eqb_spec p nz); [exact Nv|]. cbn [andb]. apply DG. lia.
      - intros p Hp Hp1. rewrite V2' by lia. destruct (Z.eqb_spec (p + 1) nz), (Z.eqb_spec p nz), (Z.ltb_spec (p + 1) nz); try lia; cbn [andb]; apply SZ; lia. }
    intros FAC. set (R2 := zupd R1 (nz + n * nz) (sqrt rho)).
    assert (V2 : forall p q, (0 <= p < n)%Z -> (0 <= q < n)%Z -> ce n R2 p q = if ((p =? nz) && (q =? nz))%Z then sqrt rho else if ((q =? nz) && (p <? nz))%Z then r p else ce n (q_R (p_b s)) p q) by apply V2'.
    destruct (factor_extend n nz (q_R (p_b s)) R2 (zhz l0 Hm (ce n (p_Q s))) (zhz l0 Hm (ce n Q)) r) as (CV & FX); auto; try lia.
    - intros p q Hp Hq. apply zhz_ext; intros v Hv; apply COL; auto.
    - intros p Hp. apply (zhz_sym n); auto.
    - intros p q Hp Hq. rewrite V2 by lia. destruct (Z.eqb_spec q nz); [lia|]. rewrite andb_false_r. reflexivity.
    - intros p Hp. rewrite V2 by lia. destruct (Z.eqb_spec p nz); [lia|]. rewrite Z.eqb_refl. destruct (Z.ltb_spec p nz); [reflexivity|lia].
    - split; [exact CV|]. intros Pos. split; [apply FX; auto; rewrite V2 by lia; now rewrite !Z.eqb_refl|].
      intros p Hp Hp1. rewrite V2 by lia. destruct (Z.eqb_spec (p + 1) nz), (Z.eqb_spec p nz), (Z.ltb_spec (p + 1) nz); try lia; cbn [andb]; apply SZ; lia. }
  apply wp_bind.
  refine (wp_any _ (fun c => exists R1 r rho0, c = Next (rho0, R1) /\ rho0 = 0 - rsum 0 nz (fun k => r k * r k) /\ zlen R1 = (n * n)%Z /\ (forall p, (0 <= p < nz)%Z -> matvec nz (utrans true (triu (q_R (p_b s)) n)) r p = zhz l0 Hm (ce n Q) p nz) /\
     (forall p q, (0 <= p < n)%Z -> (0 <= q < n)%Z -> ce n R1 p q = if ((q =? nz) && (p <? nz))%Z then r p else ce n (q_R (p_b s)) p q)) _ _ _).
  { destruct (Z.ltb_spec 0 nz) as [Pz|Pz].
    - apply wp_bind. eapply wp_mono; [apply (accP n nz nfr (p_FR s) l0 Q [] (zn 0 Hz)); auto; try lia; intros j Hj; apply rd_ok; rcar; lia|].
      intros w (Lw & Vw). cbv beta. unfold p_backsolveR. change (pV s2) with (st_n (p_bounds s)). rewrite En. change (pZ s2) with (pFR s - pAC s)%Z. rewrite EF, EC. fold nz. change (q_R (p_b s2)) with (q_R (p_b s)).
      eapply wp_mono; [apply (rcol_ok eps zero infty zero_0 junk J n nz (q_R (p_b s)) w 0); auto; lia|]. intros c0 (r & R1 & -> & L1 & SOL & V1).
      exists R1, r, (0 - rsum 0 nz (fun i => r i * r i)). split; [reflexivity|]. split; [reflexivity|]. split; [exact (eq_trans L1 LR)|]. split; [|exact V1].
      intros p Hp. rewrite SOL, Vw by lia. apply ZZ.
    - apply wp_ok. exists (q_R (p_b s)), (fun _ => 0), 0. split; [reflexivity|]. split; [rewrite rsum_empty by lia; ring|]. split; [exact LR|]. split; [intros; lia|].
      intros p q Hp Hq. destruct (Z.ltb_spec p nz); [lia|]. now rewrite andb_false_r. }
  intros c0 (R1 & r & rho0 & -> & Er0 & L1 & SOL & V1).
  rewrite (sum_loop 0 nfr _ (fun j => ce n Q (zn 0%Z l0 j) nz * zn 0 Hz j)); [|lia|].
  2:{ intros j v Hj. rewrite RD by lia. cbn [bind]. rcar. rewrite (rd_ok 0) by (rewrite LQ3; apply IQ; lia). cbn [bind]. rewrite (rd_ok 0) by (rcar; lia). reflexivity. }
  cbn [bind]. rewrite ZZ. destruct (EXT R1 r L1 SOL V1) as (RG & CR). cbv zeta in CR.
  replace (rho0 + zhz l0 Hm (ce n Q) nz nz) with (zhz l0 Hm (ce n Q) nz nz - rsum 0 nz (fun k => r k * r k)) by (rewrite Er0; ring).
  set (rho := zhz l0 Hm (ce n Q) nz nz - rsum 0 nz (fun k => r k * r k)) in *.
  assert (IN : (0 <= nz + n * nz < zlen R1)%Z) by (apply (ce_in n R1 (nz + 1)); lia).
  destruct (storeRho_ok n nz (p_opts s) allowFlip rho R1 ltac:(lia) L1) as (d & Ed & PD). rewrite Ed. cbn [bind]. cbv zeta in PD. fold fl in PD.
  destruct d as [R2| | |]; [| | |contradiction].
  - destruct PD as (v & -> & P1 & P2 & P3).
    match goal with |- context [p_cons ?u] => change (p_cons u) with (p_cons s) end. rewrite Ec. cbn [bind]. change (negb (SUCCESSFUL_RETURN =r? SUCCESSFUL_RETURN)) with false. cbn iota. apply wp_ok.
    apply (MV (zupd R1 (nz + n * nz) v) rho); auto; try discriminate.
    + now rewrite zlen_zupd.
    + intros _ FAC. now apply CR.
    + intros _ FAC Pos. destruct fl; [destruct (P1 eq_refl) as (_ & ->)|rewrite (P2 eq_refl Pos)]; now apply CR.
    + intros _ E. now apply P1.
    + intros _ E Neg. destruct (P3 E Neg) as (-> & ->). split; [reflexivity|]. rewrite ce_upd by lia. now rewrite !Z.eqb_refl.
    + intros _ Pf Pe. apply RG. destruct fl; [destruct (P1 eq_refl) as (Pr & ->); specialize (Pf eq_refl); apply Rgt_not_eq, sqrt_lt_R0; lra|].
      destruct (Rle_lt_dec rho 0) as [Le|Lt]; [destruct (P3 eq_refl Le) as (_ & ->); lra|rewrite (P2 eq_refl Lt); now apply Rgt_not_eq, sqrt_lt_R0].
    + intros _ p q Hp Hq. rewrite ce_upd by lia. rewrite V1 by lia. destruct (Z.eqb_spec q nz); [lia|]. now rewrite andb_false_r.
  - destruct PD as (Efl & Le). eapply wp_mono.
    { apply (flipConstraint_ok n m Am s _ l0 l1 k0 k1 number W F Hin). exists f, Q, T, R1. split; [reflexivity|]. split; [auto|]. rewrite <- EsT. auto. }
    intros [r' s'] (-> & FC & PW' & PF'). exists T, Q, R1, f, rho. split; [exact TQF|]. split; [exact COL|]. split; [intros _ FAC; now apply CR|]. right; left. auto 8.
  - destruct PD as (Efl & Ea & Le). apply wp_ok. exists T, Q, R1, f, rho. split; [exact TQF|]. split; [exact COL|]. split; [intros _ FAC; now apply CR|]. right; right. auto.
Qed.
End X9.
