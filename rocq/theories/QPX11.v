(** Removing a bound keeps both factorisations exact. *)
From Verif Require Import Base Types Num Options Indexlist IndexlistProofs Loops RSum LinSpec SafeLib SubjectTo SubjectToProofs SubjectToProofs2
  Flipper PropFlipper Matrices MatLib MatSafe LinAlg PropLinAlg QProblemB QPBSafe QPBSafe2 QPBX1 QPBX2 QPBX3 QPBX4 QProblem QPX1 QPX2 QPX3 QPX4 QPX5 QPX7 QPX8 QPX9 QPX10.
Local Open Scope R_scope.

Section X11.
Variables eps zero infty : R.
Notation N := (RNumT eps zero infty).
Notation arr := (list R).
Hypothesis zero_0 : zero = 0.
Variable junk : Z -> arr.
Hypothesis J : junk_ok (N := N) junk.
Notation pwf := (pwf eps zero infty).
Notation pfl := (pfl eps zero infty).

(** the flipped state: everything but the status and one limit of a bound *)
Definition flippedB (s s' : qp N) (number : Z) : Prop :=
  exists b f lb ub,
    s' = up_b (fun q => set_q_lb (N := N) lb (set_q_ub (N := N) ub (set_q_bounds b (set_q_htype HST_SEMIDEF (set_q_flip f q))))) s /\
    same_meta (p_bounds s) b /\ st_status b = zupd (st_status (p_bounds s)) number (flip (zs (st_status (p_bounds s)) number)) /\ st_ina b = st_ina (p_bounds s) /\ st_act b = st_act (p_bounds s) /\
    (if is_sts (flip (zs (st_status (p_bounds s)) number)) ST_LOWER
     then lb = zupd (q_lb (p_b s)) number (zn 0 (q_ub (p_b s)) number) /\ ub = q_ub (p_b s)
     else lb = q_lb (p_b s) /\ ub = zupd (q_ub (p_b s)) number (zn 0 (q_lb (p_b s)) number)).

Lemma p_flipBound_ok n m Am (s0 s : qp N) l0 l1 k0 k1 number : pwf n m Am s0 l0 l1 k0 k1 -> pfl n m s0 -> In number l1 ->
  (exists f Q T Ra b, s = up_b (set_q_htype HST_SEMIDEF) (up_b (set_q_R Ra) (set_p_T T (set_p_Q Q (up_b (set_q_bounds b) (up_b (set_q_flip f) s0))))) /\ saved eps zero infty n m f s0 /\
     zlen Q = (n * n)%Z /\ zlen T = (Z.min n m * Z.min n m)%Z /\ zlen Ra = (n * n)%Z) ->
  wp (p_flipBound (N := N) number s) (fun '(r, s') => r = SUCCESSFUL_RETURN /\ flippedB s0 s' number /\ pwf n m Am s' l0 l1 k0 k1 /\ pfl n m s').
Proof.
  intros W F Hin (f & Q & T & Ra & bb & Es & SV & LQ & LT & LR). unfold p_flipBound.
  rewrite (p_restore_ok eps zero infty n m s0 s) by (subst s; assumption). cbn [bind].
  pose proof (pw_b _ _ _ _ _ _ _ _ _ _ _ W) as Wb. pose proof (pw_n _ _ _ _ _ _ _ _ _ _ _ W) as En. unfold pV in En.
  match goal with |- context [set_p_T (p_T s0) ?u] => set (s1 := set_p_T (p_T s0) u) end.
  change (p_bounds s1) with (p_bounds s0).
  destruct (flip_ok KBounds (p_bounds s0) l0 l1 number Wb Hin) as (b & E & WB & Me & SE & EI & EA). rewrite E. cbn [bind].
  destruct (proj1 (wf_in1 _ _ _ Wb number) Hin) as (Ri & Ai). destruct (flip_active _ Ai) as (Af & Fo). rewrite En in Ri.
  assert (GV : st_getStatus b number = Ok (flip (zs (st_status (p_bounds s0)) number))).
  { rewrite (getStatus_ok b l0 l1); [|exact WB|destruct Me as (-> & _); rewrite En; exact Ri].
    rewrite SE. f_equal. rewrite (zs_upd n); auto; [now rewrite Z.eqb_refl|]. rewrite (wf_stat _ _ _ Wb). exact En. }
  rewrite GV. cbn [bind]. cbv zeta.
  pose proof F as [(g & Hg) F1 F2 F3 F4 F5 F6].
  assert (PW : forall lb ub, zlen lb = n -> zlen ub = n ->
     let s' := up_b (fun q => set_q_lb (N := N) lb (set_q_ub (N := N) ub (set_q_bounds b (set_q_htype HST_SEMIDEF (set_q_flip f q))))) s0 in
     pwf n m Am s' l0 l1 k0 k1 /\ pfl n m s').
  { intros lb ub H1 H2 s'. destruct W. destruct SV as (g' & Hg' & _). split; constructor; auto; try (exists g'; exact Hg').
    change (st_n b = n). rewrite <- En. destruct Me as (-> & _). reflexivity. }
  change (q_ub (p_b (up_b (set_q_bounds b) s1))) with (q_ub (p_b s)). change (q_lb (p_b (up_b (set_q_bounds b) s1))) with (q_lb (p_b s)).
  replace (q_ub (p_b s)) with (q_ub (p_b s0)) by (subst s; reflexivity). replace (q_lb (p_b s)) with (q_lb (p_b s0)) by (subst s; reflexivity). rcar.
  destruct Fo as [Fo|Fo]; rewrite Fo.
  - rewrite (rd_ok 0) by lia. cbn [bind]. rewrite wr_ok by lia. cbn [bind]. apply wp_ok. split; [reflexivity|].
    match goal with |- flippedB _ ?u _ /\ _ => replace u with (up_b (fun q => set_q_lb (N := N) (zupd (q_lb (p_b s0)) number (zn 0 (q_ub (p_b s0)) number)) (set_q_ub (N := N) (q_ub (p_b s0)) (set_q_bounds b (set_q_htype HST_SEMIDEF (set_q_flip f q))))) s0)
       by (subst s1 s; destruct s0 as [b0]; destruct b0; reflexivity) end.
    split; [|apply PW; rewrite ?zlen_zupd; auto].
    exists b, f, (zupd (q_lb (p_b s0)) number (zn 0 (q_ub (p_b s0)) number)), (q_ub (p_b s0)).
    split; [reflexivity|]. split; [exact Me|]. split; [now rewrite SE, Fo|]. split; [exact EI|]. split; [exact EA|]. rewrite Fo. change (is_sts ST_LOWER ST_LOWER) with true. cbn iota. auto.
  - rewrite (rd_ok 0) by lia. cbn [bind]. rewrite wr_ok by lia. cbn [bind]. apply wp_ok. split; [reflexivity|].
    match goal with |- flippedB _ ?u _ /\ _ => replace u with (up_b (fun q => set_q_lb (N := N) (q_lb (p_b s0)) (set_q_ub (N := N) (zupd (q_ub (p_b s0)) number (zn 0 (q_lb (p_b s0)) number)) (set_q_bounds b (set_q_htype HST_SEMIDEF (set_q_flip f q))))) s0)
       by (subst s1 s; destruct s0 as [b0]; destruct b0; reflexivity) end.
    split; [|apply PW; rewrite ?zlen_zupd; auto].
    exists b, f, (q_lb (p_b s0)), (zupd (q_ub (p_b s0)) number (zn 0 (q_lb (p_b s0)) number)).
    split; [reflexivity|]. split; [exact Me|]. split; [now rewrite SE, Fo|]. split; [exact EI|]. split; [exact EA|]. rewrite Fo. change (is_sts ST_UPPER ST_LOWER) with false. cbn iota. auto.
Qed.

(** a unit column and row appended to Q *)
Lemma unitQ_ok n FR l0 number nfr (Q : arr) : zlen Q = (n * n)%Z -> NoDup l0 -> (forall v, In v l0 -> (0 <= v < n)%Z) -> (0 <= number < n)%Z -> ~ In number l0 ->
  zlen l0 = nfr -> (nfr < n)%Z -> (forall k, (0 <= k < nfr)%Z -> rd FR k = Ok (zz l0 k)) ->
  wp (Q <- for_up 0 nfr (fun i Q => ii <- rd FR i ;; Q <- wr Q (ii + n * nfr) (n0 (N := N)) ;; wr Q (number + n * i) (n0 (N := N))) Q ;; wr Q (number + n * nfr) (n1 (N := N)))
    (fun Q' => zlen Q' = zlen Q /\ (forall v q, In v l0 -> (0 <= q < nfr)%Z -> ce n Q' v q = ce n Q v q) /\ (forall v, In v l0 -> ce n Q' v nfr = 0) /\
       (forall q, (0 <= q < nfr)%Z -> ce n Q' number q = 0) /\ ce n Q' number nfr = 1).
Proof.
  intros LQ ND RG Rn NI El Ln RD. pose proof (zlen_nonneg l0).
  apply wp_bind. apply wp_for_up with (I := fun i Q' => zlen Q' = (n * n)%Z /\ (forall v q, In v l0 -> (0 <= q < nfr)%Z -> ce n Q' v q = ce n Q v q) /\
      (forall k, (0 <= k < i)%Z -> ce n Q' (zz l0 k) nfr = 0) /\ (forall q, (0 <= q < i)%Z -> ce n Q' number q = 0)); [lia| | |].
  - split; [exact LQ|]. split; [auto|]. split; intros; lia.
  - intros i Q1 Hi (L1 & V1 & C1 & W1). rewrite RD by lia. cbn [bind]. assert (In (zz l0 i) l0) by (apply zn_In; lia). assert (Ri : (0 <= zz l0 i < n)%Z) by auto.
    assert (Ne : zz l0 i <> number) by congruence.
    rcar. rewrite (@wr_ok R) by (apply (ce_in n Q1 n); lia). cbn [bind]. rewrite (@wr_ok R) by (rewrite zlen_zupd; apply (ce_in n Q1 n); lia). apply wp_ok. rewrite !zlen_zupd.
    assert (V : forall u q, (0 <= u < n)%Z -> (0 <= q < n)%Z -> ce n (zupd (zupd Q1 (zz l0 i + n * nfr) (n0 (N := N))) (number + n * i) (n0 (N := N))) u q =
       if ((u =? number) && (q =? i))%Z then 0 else if ((u =? zz l0 i) && (q =? nfr))%Z then 0 else ce n Q1 u q).
    { intros u q Hu Hq. rewrite ce_upd by (rewrite ?zlen_zupd; try lia; apply (ce_in n Q1 n); lia). rewrite ce_upd by (try lia; apply (ce_in n Q1 n); lia). rnum. reflexivity. }
    split; [exact L1|]. split; [|split].
    + intros v q Hv Hq. rewrite V by (auto; lia). destruct (Z.eqb_spec v number); [subst; contradiction|]. destruct (Z.eqb_spec q nfr); [lia|]. rewrite andb_false_r. cbn [andb]. auto.
    + intros k Hk. assert (In (zz l0 k) l0) by (apply zn_In; lia). rewrite V by (auto; lia). destruct (Z.eqb_spec (zz l0 k) number); [congruence|]. cbn [andb]. rewrite Z.eqb_refl, andb_true_r.
      destruct (Z.eqb_spec (zz l0 k) (zz l0 i)) as [E|]; [reflexivity|]. apply C1. destruct (Z.eq_dec k i) as [->|]; [contradiction|lia].
    + intros q Hq. rewrite V by lia. rewrite Z.eqb_refl. cbn [andb]. destruct (Z.eqb_spec q i); [reflexivity|]. destruct (Z.eqb_spec number (zz l0 i)); [congruence|]. cbn [andb]. apply W1. lia.
  - intros Q1 (L1 & V1 & C1 & W1). rcar. rewrite (@wr_ok R) by (apply (ce_in n Q1 n); lia). apply wp_ok. rewrite zlen_zupd.
    assert (V : forall u q, (0 <= u < n)%Z -> (0 <= q < n)%Z -> ce n (zupd Q1 (number + n * nfr) (n1 (N := N))) u q = if ((u =? number) && (q =? nfr))%Z then 1 else ce n Q1 u q).
    { intros u q Hu Hq. rewrite ce_upd by (try lia; apply (ce_in n Q1 n); lia). rnum. reflexivity. }
    split; [congruence|]. split; [|split; [|split]].
    + intros v q Hv Hq. rewrite V by (auto; lia). destruct (Z.eqb_spec v number); [subst; contradiction|]. cbn [andb]. auto.
    + intros v Hv. rewrite V by (auto; lia). destruct (Z.eqb_spec v number); [subst; contradiction|]. cbn [andb]. apply In_zn with (d := 0%Z) in Hv as (k & Hk & <-). apply C1. lia.
    + intros q Hq. rewrite V by lia. destruct (Z.eqb_spec q nfr); [lia|]. rewrite andb_false_r. apply W1. lia.
    + rewrite V by lia. now rewrite !Z.eqb_refl.
Qed.

Lemma orth_app nfr (l0 : list Z) number F F' : ~ In number l0 -> orth l0 nfr F -> (0 <= nfr)%Z ->
  (forall v q, In v l0 -> (0 <= q < nfr)%Z -> F' v q = F v q) -> (forall v, In v l0 -> F' v nfr = 0) -> (forall q, (0 <= q < nfr)%Z -> F' number q = 0) -> F' number nfr = 1 ->
  orth (l0 ++ [number]) (nfr + 1) F'.
Proof.
  intros NI (A & B) Hn E1 E2 E3 E4. split.
  - intros p q Hp Hq. rewrite lsum_app. cbn [lsum]. destruct (Z.eq_dec p nfr) as [->|], (Z.eq_dec q nfr) as [->|].
    + rewrite (lsum_0 l0); [|intros v Hv; rewrite E2 by auto; ring]. rewrite E4. unfold delta. rewrite Z.eqb_refl. ring.
    + rewrite (lsum_0 l0); [|intros v Hv; rewrite E2 by auto; ring]. rewrite (E3 q) by lia. unfold delta. destruct (Z.eqb_spec nfr q); [lia|]. ring.
    + rewrite (lsum_0 l0); [|intros v Hv; rewrite (E2 v) by auto; ring]. rewrite (E3 p) by lia. unfold delta. destruct (Z.eqb_spec p nfr); [lia|]. ring.
    + rewrite (E3 p) by lia. rewrite <- (A p q) by lia. rewrite (lsum_ext l0 _ (fun v => F v p * F v q)); [ring|]. intros v Hv. now rewrite !E1 by (auto; lia).
  - intros u v Hu Hv. rewrite rsum_last by lia. apply in_app_or in Hu, Hv. destruct Hu as [Hu|[<-|[]]], Hv as [Hv|[<-|[]]].
    + rewrite (E2 u) by auto. rewrite <- (B u v) by auto. rewrite Rmult_0_l, Rplus_0_r. apply rsum_ext. intros p Hp. now rewrite !E1 by (auto; lia).
    + rewrite (E2 u) by auto. rewrite rsum_0; [|intros p Hp; rewrite (E3 p) by lia; ring]. unfold delta. destruct (Z.eqb_spec u number); [subst; contradiction|]. ring.
    + rewrite (E2 v) by auto. rewrite rsum_0; [|intros p Hp; rewrite (E3 p) by lia; ring]. unfold delta. destruct (Z.eqb_spec number v); [subst; contradiction|]. ring.
    + rewrite E4. rewrite rsum_0; [|intros p Hp; rewrite (E3 p) by lia; ring]. unfold delta. rewrite Z.eqb_refl. ring.
Qed.

Lemma for_up_ext {S} lo hi (b1 b2 : Z -> S -> res S) s : (forall i x, b1 i x = b2 i x) -> for_up lo hi b1 s = for_up lo hi b2 s.
Proof.
  intros E. unfold for_up. generalize (Z.to_nat (hi - lo)). intros k. revert lo s. induction k as [|k IH]; intros lo s; [reflexivity|].
  cbn [for_up_n]. rewrite E. destruct (b2 lo s); cbn [bind]; auto.
Qed.
Lemma zhz_app (l0 : list Z) number Hm F a b : zhz (l0 ++ [number]) Hm F a b =
  lsum l0 (fun u => F u a * (lsum l0 (fun v => Hm u v * F v b) + F number b * Hm u number)) +
  F number a * (lsum l0 (fun v => Hm number v * F v b) + Hm number number * F number b).
Proof.
  unfold zhz. rewrite lsum_app. cbn [lsum]. rewrite Rplus_0_r. f_equal.
  - apply lsum_ext. intros u Hu. rewrite lsum_app. cbn [lsum]. rewrite Rplus_0_r, Rmult_plus_distr_l, <- lsum_scal. f_equal; [apply lsum_ext; intros; ring|ring].
  - rewrite lsum_app. cbn [lsum]. rewrite Rplus_0_r, Rmult_plus_distr_l, <- lsum_scal. f_equal; [apply lsum_ext; intros; ring|ring].
Qed.
Lemma zhz_app_nz n (l0 : list Z) number Hm F b : symm_on n Hm -> (forall v, In v l0 -> (0 <= v < n)%Z) -> (0 <= number < n)%Z ->
  zhz (l0 ++ [number]) Hm F b b = Hm number number * F number b * F number b +
    lsum l0 (fun u => F u b * (lsum l0 (fun v => Hm u v * F v b) + 2 * F number b * Hm u number)).
Proof.
  intros SY RG Rn. rewrite zhz_app.
  rewrite (lsum_ext l0 (fun v => Hm number v * F v b) (fun v => F v b * Hm v number)) by (intros v Hv; rewrite SY by auto; ring).
  rewrite (lsum_ext l0 (fun u => F u b * (_ + 2 * _ * _)) (fun u => F u b * (lsum l0 (fun v => Hm u v * F v b) + F number b * Hm u number) + F number b * (F u b * Hm u number))) by (intros u Hu; ring).
  rewrite lsum_plus, lsum_scal. ring.
Qed.

Lemma removeBound_update_ok n m Am Hm (s : qp N) l0 l1 k0 k1 number updC allowFlip :
  pwf n m Am s l0 l1 k0 k1 -> pfl n m s -> In number l1 -> tqf n (p_sizeT s) l0 k1 Am (p_Q s) (p_T s) ->
  (updC && plainH (p_b s) = true -> symm_on n Hm /\ hmat eps zero infty n s Hm /\ rreg n (zlen l0 - zlen k1) (q_R (p_b s))) ->
  wp (removeBound_update (N := N) junk number updC allowFlip None s) (fun '(r, s') =>
    let fac := factor n (zlen l0 - zlen k1) (q_R (p_b s)) (zhz l0 Hm (ce n (p_Q s))) in
    let upd := updC && plainH (p_b s) in let fl := o_enableFlippingBounds (p_opts s) && allowFlip in
    exists T Q Ra f rho,
      tqf n (p_sizeT s) (l0 ++ [number]) k1 Am Q T /\
      (forall q, (0 <= q < zlen l0 - zlen k1)%Z -> ce n Q number q = 0 /\ forall v, In v l0 -> ce n Q v q = ce n (p_Q s) v q) /\
      (upd = true -> fac -> curvature (zlen l0 - zlen k1) (zhz (l0 ++ [number]) Hm (ce n Q)) rho) /\
      ((exists b, r = SUCCESSFUL_RETURN /\ s' = up_b (set_q_R (N := N) Ra) (set_p_T (N := N) T (set_p_Q (N := N) Q (up_b (set_q_bounds b) (up_b (set_q_flip f) s)))) /\
          same_meta (p_bounds s) b /\ st_status b = zupd (st_status (p_bounds s)) number ST_INACTIVE /\
          pwf n m Am s' (l0 ++ [number]) (spec_remove l1 number) k0 k1 /\ pfl n m s' /\
          (upd = false -> Ra = q_R (p_b s)) /\ (upd = true -> fac -> 0 < rho -> rinv n (zlen l0 - zlen k1 + 1) (l0 ++ [number]) Hm Q Ra) /\
          (upd = true -> fl = true -> o_epsFlipping (p_opts s) < rho) /\ (upd = true -> fl = false -> rho <= 0 -> allowFlip = false /\ ce n Ra (zlen l0 - zlen k1) (zlen l0 - zlen k1) = 100 * eps) /\
          (upd = true -> (fl = true -> 0 <= o_epsFlipping (p_opts s)) -> 0 < eps -> rreg n (zlen l0 - zlen k1 + 1) Ra) /\
          (upd = true -> forall p q, (0 <= p < zlen l0 - zlen k1)%Z -> (0 <= q < zlen l0 - zlen k1)%Z -> ce n Ra p q = ce n (q_R (p_b s)) p q)) \/
       (upd = true /\ fl = true /\ rho <= o_epsFlipping (p_opts s) /\ r = SUCCESSFUL_RETURN /\ flippedB s s' number /\ pwf n m Am s' l0 l1 k0 k1 /\ pfl n m s') \/
       (upd = true /\ fl = false /\ allowFlip = true /\ rho <= 0 /\ r = RET_HESSIAN_NOT_SPD))).
Proof.
  intros W F Hin TQ0 HU.
  pose proof (pw_n _ _ _ _ _ _ _ _ _ _ _ W) as En. pose proof (pw_m _ _ _ _ _ _ _ _ _ _ _ W) as Em.
  pose proof (pw_b _ _ _ _ _ _ _ _ _ _ _ W) as Wb. pose proof (pw_c _ _ _ _ _ _ _ _ _ _ _ W) as Wc.
  pose proof (pw_Q _ _ _ _ _ _ _ _ _ _ _ W) as LQ. pose proof (pw_R _ _ _ _ _ _ _ _ _ _ _ W) as LR.
  pose proof (pw_T _ _ _ _ _ _ _ _ _ _ _ W) as LT. pose proof (pw_sT _ _ _ _ _ _ _ _ _ _ _ W) as EsT.
  unfold pV in En. unfold pC in Em.
  destruct (range_b _ _ _ Wb) as (Rg0 & Rg1). destruct (range_b _ _ _ Wc) as (Rk0 & Rk1). destruct (len_b _ _ _ Wc) as (Lk0 & Lk1).
  rewrite En in *. rewrite Em in *.
  assert (ND : NoDup l0) by exact (rep_NoDup _ _ (wf_ina _ _ _ Wb)).
  assert (EF : pFR s = zlen l0) by exact (rep_len _ _ (wf_ina _ _ _ Wb)). assert (EC : pAC s = zlen k1) by exact (rep_len _ _ (wf_act _ _ _ Wc)).
  destruct (deactivate_ok (p_bounds s) l0 l1 number Wb Hin) as (b & Ec & Wb' & SM & SS).
  assert (Enb : st_n b = n) by (rewrite <- En; destruct SM as (-> & _); reflexivity).
  destruct (range_b _ _ _ Wb') as (Rl & _). destruct (len_b _ _ _ Wb') as (Ll & _). rewrite Enb in Rl, Ll.
  assert (NDl : NoDup (l0 ++ [number])) by exact (rep_NoDup _ _ (wf_ina _ _ _ Wb')).
  assert (NI : ~ In number l0).
  { intros Q. apply (NoDup_remove_2 l0 [] number) in NDl. apply NDl. now rewrite app_nil_r. }
  assert (Rn : (0 <= number < n)%Z) by auto.
  rewrite zlen_app in Ll. change (zlen [number]) with 1%Z in Ll.
  set (nfr := zlen l0) in *. set (nac := zlen k1) in *. set (sT := p_sizeT s) in *. set (l := l0 ++ [number]) in *.
  assert (El : zlen l = (nfr + 1)%Z) by (unfold l; rewrite zlen_app; reflexivity).
  assert (N0 : (0 <= nac)%Z) by apply zlen_nonneg. assert (NF : (0 <= nfr)%Z) by apply zlen_nonneg. assert (LE : (nac <= nfr)%Z) by apply TQ0.
  set (fac := factor n (nfr - nac) (q_R (p_b s)) (zhz l0 Hm (ce n (p_Q s)))) in *.
  set (upd := updC && plainH (p_b s)) in *. set (fl := o_enableFlippingBounds (p_opts s) && allowFlip).
  unfold removeBound_update. unfold pZ. rewrite EF, EC. change (pV s) with (st_n (p_bounds s)). rewrite En. cbn [negb]. rewrite andb_true_r. fold fl.
  (* saving the state *)
  apply wp_bind. refine (wp_any _ (fun s1 => exists f, s1 = up_b (set_q_flip f) s /\ (exists g, holds (N := N) n m f g) /\ (fl = true -> saved eps zero infty n m f s)) _ _ _).
  { destruct fl.
    - destruct (p_save_ok eps zero infty junk J n m Am s l0 l1 k0 k1 W F) as (f & E & SV). rewrite E. apply wp_ok. exists f. split; [reflexivity|]. split; [|auto]. destruct SV as (g & Hg & _). eauto.
    - apply wp_ok. exists (q_flip (p_b s)). split; [destruct s as [b']; destruct b'; reflexivity|]. split; [apply F|discriminate]. }
  intros s1 (f & -> & (g & Hg) & SV). set (s1 := up_b (set_q_flip f) s).
  change (p_bounds s1) with (p_bounds s). rewrite Ec. cbn [bind]. set (s2 := up_b (set_q_bounds b) s1). change (negb (SUCCESSFUL_RETURN =r? SUCCESSFUL_RETURN)) with false. cbn iota.
  change (p_Q s2) with (p_Q s). change (p_T s2) with (p_T s). change (p_sizeT s2) with sT.
  assert (RD : forall k, (0 <= k < nfr + 1)%Z -> rd (p_FR s2) k = Ok (zn 0%Z l k)) by (intros k Hk; apply (rep_rd _ _ _ Wb'); fold l; lia).
  assert (Znn : zn 0%Z l nfr = number) by (unfold l; rewrite zn_app2 by (fold nfr; lia); fold nfr; now rewrite Z.sub_diag).
  assert (Zl : forall k, (0 <= k < nfr)%Z -> zn 0%Z l k = zn 0%Z l0 k) by (intros k Hk; unfold l; now rewrite zn_app1 by (fold nfr; lia)).
  rewrite RD by lia. rewrite Znn. cbn [bind].
  rewrite <- bind_bind. apply wp_bind. eapply wp_mono.
  { apply (unitQ_ok n (p_FR s2) l0 number nfr (p_Q s)); auto; [lia|]. intros k Hk. rewrite RD by lia. now rewrite Zl. }
  intros Q1 (LQ1 & U1 & U2 & U3 & U4). cbv beta.
  assert (LQ1' : zlen Q1 = (n * n)%Z) by exact (eq_trans LQ1 LQ).
  destruct TQ0 as (TQa & TQb & TQc & TQd). fold nfr nac in TQb, TQc, TQd.
  assert (OR : orth l (nfr + 1) (ce n Q1)) by (apply (orth_app nfr l0 number (ce n (p_Q s))); auto).
  assert (CO : forall a p, (0 <= p < nfr)%Z -> comb l a (ce n Q1) p = comb l0 a (ce n (p_Q s)) p).
  { intros a p Hp. unfold comb, l. rewrite lsum_app. cbn [lsum]. rewrite U3 by lia. rewrite Rmult_0_r, !Rplus_0_r. apply lsum_ext. intros v Hv. now rewrite U1 by (auto; lia). }
  assert (CN : forall a, comb l a (ce n Q1) nfr = a number).
  { intros a. unfold comb, l. rewrite lsum_app. cbn [lsum]. rewrite U4, lsum_0; [ring|]. intros v Hv. rewrite U2 by auto. ring. }
  (* the new column of T *)
  apply wp_bind. refine (wp_any _ (fun '(Q, T) => zlen Q = (n * n)%Z /\ zlen T = (sT * sT)%Z /\ tqf n sT l k1 Am Q T /\
     (forall v q, In v l -> (0 <= q < nfr - nac)%Z -> ce n Q v q = ce n Q1 v q)) _ _ _).
  { destruct (Z.ltb_spec 0 nac) as [Pa|Pa].
    - destruct (pw_A _ _ _ _ _ _ _ _ _ _ _ W) as (MA & EA & KA). unfold p_theA. change (p_A s2) with (p_A s). rewrite EA. cbn [bind].
      destruct (am_col _ _ _ _ _ _ _ KA number (p_active s2) k1 (junk nac)) as (col & Ecol & Lcol & Vcol); [exact (wf_act _ _ _ Wc)|exact Rk1|exact Rn|rewrite J by lia; unfold nac; lia|].
      rewrite Ecol. cbn [bind]. rewrite J in Lcol by lia. eapply wp_mono.
      { apply (appendColT_ok eps zero infty zero_0 n (p_FR s2) l k1 nfr nac (nfr - nac) sT Am col Q1 (p_T s)); auto; try lia.
        - intros i p Hi Hp. rewrite CO by lia. apply TQc; lia.
        - intros i Hi. rewrite CN. symmetry. apply Vcol. fold nac. lia. }
      intros [Q T] (A1 & A2 & A3 & A4). split; [exact (eq_trans A1 LQ1')|]. split; [exact (eq_trans A2 LT)|]. auto.
    - apply wp_ok. split; [exact LQ1'|]. split; [exact LT|]. split; [|auto]. unfold tqf. rewrite El. fold nac. split; [lia|]. split; [exact OR|]. split; intros; lia. }
  intros [Q T] (LQ3 & LT3 & TQF & COL).
  set (s3 := set_p_T (N := N) T (set_p_Q (N := N) Q s2)).
  assert (PW : forall Ra, zlen Ra = (n * n)%Z -> let s' := up_b (set_q_R (N := N) Ra) s3 in pwf n m Am s' l (spec_remove l1 number) k0 k1 /\ pfl n m s').
  { intros Ra LRa s'. destruct W, F. split; constructor; auto; exists g; exact Hg. }
  assert (CL : forall q, (0 <= q < nfr - nac)%Z -> ce n Q number q = 0 /\ forall v, In v l0 -> ce n Q v q = ce n (p_Q s) v q).
  { intros q Hq. split; [rewrite COL by (try lia; unfold l; rewrite in_app_iff; cbn; auto); apply U3; lia|].
    intros v Hv. rewrite COL by (try lia; unfold l; rewrite in_app_iff; cbn; auto). apply U1; [auto|lia]. }
  set (post := fun (r : returnValue) (s' : qp N) => exists T Q Ra f rho,
      tqf n sT l k1 Am Q T /\
      (forall q, (0 <= q < nfr - nac)%Z -> ce n Q number q = 0 /\ forall v, In v l0 -> ce n Q v q = ce n (p_Q s) v q) /\
      (upd = true -> fac -> curvature (nfr - nac) (zhz l Hm (ce n Q)) rho) /\
      ((exists b, r = SUCCESSFUL_RETURN /\ s' = up_b (set_q_R (N := N) Ra) (set_p_T (N := N) T (set_p_Q (N := N) Q (up_b (set_q_bounds b) (up_b (set_q_flip f) s)))) /\
          same_meta (p_bounds s) b /\ st_status b = zupd (st_status (p_bounds s)) number ST_INACTIVE /\
          pwf n m Am s' l (spec_remove l1 number) k0 k1 /\ pfl n m s' /\
          (upd = false -> Ra = q_R (p_b s)) /\ (upd = true -> fac -> 0 < rho -> rinv n (nfr - nac + 1) l Hm Q Ra) /\
          (upd = true -> fl = true -> o_epsFlipping (p_opts s) < rho) /\ (upd = true -> fl = false -> rho <= 0 -> allowFlip = false /\ ce n Ra (nfr - nac) (nfr - nac) = 100 * eps) /\
          (upd = true -> (fl = true -> 0 <= o_epsFlipping (p_opts s)) -> 0 < eps -> rreg n (nfr - nac + 1) Ra) /\
          (upd = true -> forall p q, (0 <= p < nfr - nac)%Z -> (0 <= q < nfr - nac)%Z -> ce n Ra p q = ce n (q_R (p_b s)) p q)) \/
       (upd = true /\ fl = true /\ rho <= o_epsFlipping (p_opts s) /\ r = SUCCESSFUL_RETURN /\ flippedB s s' number /\ pwf n m Am s' l0 l1 k0 k1 /\ pfl n m s') \/
       (upd = true /\ fl = false /\ allowFlip = true /\ rho <= 0 /\ r = RET_HESSIAN_NOT_SPD))).
  apply (wp_mono _ (fun '(r, s') => post r s')); [|intros [r s'] P; exact P].
  assert (MV : forall Ra rho, zlen Ra = (n * n)%Z -> (upd = true -> fac -> curvature (nfr - nac) (zhz l Hm (ce n Q)) rho) ->
      (upd = false -> Ra = q_R (p_b s)) -> (upd = true -> fac -> 0 < rho -> rinv n (nfr - nac + 1) l Hm Q Ra) ->
      (upd = true -> fl = true -> o_epsFlipping (p_opts s) < rho) -> (upd = true -> fl = false -> rho <= 0 -> allowFlip = false /\ ce n Ra (nfr - nac) (nfr - nac) = 100 * eps) ->
      (upd = true -> (fl = true -> 0 <= o_epsFlipping (p_opts s)) -> 0 < eps -> rreg n (nfr - nac + 1) Ra) ->
      (upd = true -> forall p q, (0 <= p < nfr - nac)%Z -> (0 <= q < nfr - nac)%Z -> ce n Ra p q = ce n (q_R (p_b s)) p q) ->
      forall r s', r = SUCCESSFUL_RETURN -> s' = up_b (set_q_R (N := N) Ra) s3 -> post r s').
  { intros Ra rho LRa H1 H2 H3 H4 H5 H6 H7 r s' -> ->. exists T, Q, Ra, f, rho. split; [exact TQF|]. split; [exact CL|]. split; [exact H1|]. left. exists b.
    split; [reflexivity|]. split; [reflexivity|]. split; [exact SM|]. split; [exact SS|]. destruct (PW Ra LRa) as (P1 & P2). auto 10. }
  change (plainH (p_b s3)) with (plainH (p_b s)). fold upd.
  destruct upd eqn:EU.
  2:{ apply wp_ok. apply (MV (q_R (p_b s)) 0); auto; try discriminate. }
  destruct (HU eq_refl) as (SY & (M & EM & MO) & (DG & SZ)). clear HU.
  change (q_R (p_b s3)) with (q_R (p_b s)). change (p_free s3) with (p_free s2).
  assert (HnZ : (nfr - nac < n)%Z) by lia.
  assert (IQ : forall j q, (0 <= j < nfr + 1)%Z -> (0 <= q < n)%Z -> (0 <= zn 0 l j + n * q < n * n)%Z).
  { intros j q Hj Hq. assert (0 <= zn 0 l j < n)%Z by (apply Rl, zn_In; lia). nia. }
  rcar. rewrite (rd_ok 0) by (apply (ce_in n Q n); lia). cbn [bind].
  unfold q_theH. change (q_H (p_b s3)) with (q_H (p_b s)). rewrite EM. cbn [bind]. rewrite (mo_diag _ _ _ _ _ _ MO) by lia. cbn [bind].
  set (nz := (nfr - nac)%Z) in *. change (zn 0 Q (number + n * nz)) with (ce n Q number nz). set (z2 := ce n Q number nz).
  assert (EXT : forall (R1 : arr) (r : Z -> R), zlen R1 = (n * n)%Z -> (forall p, (0 <= p < nz)%Z -> matvec nz (utrans true (triu (q_R (p_b s)) n)) r p = zhz l Hm (ce n Q) p nz) ->
     (forall p q, (0 <= p < n)%Z -> (0 <= q < n)%Z -> ce n R1 p q = if ((q =? nz) && (p <? nz))%Z then r p else ce n (q_R (p_b s)) p q) ->
     let rho := zhz l Hm (ce n Q) nz nz - rsum 0 nz (fun k => r k * r k) in
     (forall v, v <> 0 -> rreg n (nz + 1) (zupd R1 (nz + n * nz) v)) /\
     (fac -> curvature nz (zhz l Hm (ce n Q)) rho /\ (0 < rho -> rinv n (nz + 1) l Hm Q (zupd R1 (nz + n * nz) (sqrt rho))))).
  { intros R1 r L1 SOL V1 rho.
    assert (IN : (0 <= nz + n * nz < zlen R1)%Z) by (apply (ce_in n R1 (nz + 1)); lia).
    assert (V2' : forall v p q, (0 <= p < n)%Z -> (0 <= q < n)%Z -> ce n (zupd R1 (nz + n * nz) v) p q = if ((p =? nz) && (q =? nz))%Z then v else if ((q =? nz) && (p <? nz))%Z then r p else ce n (q_R (p_b s)) p q).
    { intros v p q Hp Hq. rewrite ce_upd by lia. now rewrite V1 by lia. }
    split.
    { intros v Nv. split.
      - intros p Hp. rewrite V2' by lia. destruct (Z.eqb_spec p nz); [exact Nv|]. cbn [andb]. apply DG. lia.
      - intros p Hp Hp1. rewrite V2' by lia. destruct (Z.eqb_spec (p + 1) nz), (Z.eqb_spec p nz), (Z.ltb_spec (p + 1) nz); try lia; cbn [andb]; apply SZ; lia. }
    intros FAC. set (R2 := zupd R1 (nz + n * nz) (sqrt rho)).
    assert (V2 : forall p q, (0 <= p < n)%Z -> (0 <= q < n)%Z -> ce n R2 p q = if ((p =? nz) && (q =? nz))%Z then sqrt rho else if ((q =? nz) && (p <? nz))%Z then r p else ce n (q_R (p_b s)) p q) by apply V2'.
    destruct (factor_extend n nz (q_R (p_b s)) R2 (zhz l0 Hm (ce n (p_Q s))) (zhz l Hm (ce n Q)) r) as (CV & FX); auto; try lia.
    - intros p q Hp Hq. unfold l. rewrite zhz_app. destruct (CL p Hp) as (-> & Ep). destruct (CL q Hq) as (-> & Eq). rewrite Rmult_0_l, Rplus_0_r. unfold zhz. apply lsum_ext. intros u Hu.
      rewrite Rmult_0_l, Rplus_0_r, <- lsum_scal. apply lsum_ext. intros v Hv. rewrite Ep, Eq by auto. ring.
    - intros p Hp. apply (zhz_sym n); auto.
    - intros p q Hp Hq. rewrite V2 by lia. destruct (Z.eqb_spec q nz); [lia|]. rewrite andb_false_r. reflexivity.
    - intros p Hp. rewrite V2 by lia. destruct (Z.eqb_spec p nz); [lia|]. rewrite Z.eqb_refl. destruct (Z.ltb_spec p nz); [reflexivity|lia].
    - split; [exact CV|]. intros Pos. split; [apply FX; auto; rewrite V2 by lia; now rewrite !Z.eqb_refl|].
      intros p Hp Hp1. rewrite V2 by lia. destruct (Z.eqb_spec (p + 1) nz), (Z.eqb_spec p nz), (Z.ltb_spec (p + 1) nz); try lia; cbn [andb]; apply SZ; lia. }
  apply wp_bind.
  refine (wp_any _ (fun c => exists R1 r, c = Next (zhz l Hm (ce n Q) nz nz - rsum 0 nz (fun k => r k * r k), R1) /\ zlen R1 = (n * n)%Z /\ (forall p, (0 <= p < nz)%Z -> matvec nz (utrans true (triu (q_R (p_b s)) n)) r p = zhz l Hm (ce n Q) p nz) /\
     (forall p q, (0 <= p < n)%Z -> (0 <= q < n)%Z -> ce n R1 p q = if ((q =? nz) && (p <? nz))%Z then r p else ce n (q_R (p_b s)) p q)) _ _ _).
  { destruct (Z.ltb_spec 0 nfr) as [Pf|Pf].
    2:{ apply wp_ok. assert (nz = 0%Z) by lia. exists (q_R (p_b s)), (fun _ => 0). split; [|split; [exact LR|split; [intros; lia|]]].
        - do 2 f_equal. rewrite rsum_empty by lia. unfold l. rewrite (zhz_app_nz n); auto. destruct l0 as [|x t]; [|pose proof (zlen_nonneg t); unfold nfr in Pf; rewrite zlen_cons in Pf; lia]. cbn [lsum]. rnum. fold z2. ring.
        - intros p q Hp Hq. destruct (Z.ltb_spec p nz); [lia|]. now rewrite andb_false_r. }
    apply wp_bind. apply (wp_fill 0 (fun j => ce n Q (zn 0%Z l j) nz)); [rewrite J by lia; lia| |].
    { intros j z Hj Lz. rewrite RD by lia. cbn [bind]. rcar. rewrite (rd_ok 0) by (rewrite LQ3; apply IQ; lia). cbn [bind]. rewrite J in Lz by lia. now rewrite wr_ok by lia. }
    intros z Lz Vz _. rewrite J in Lz by lia. rcar. rewrite wr_ok by lia. cbn [bind].
    set (z' := zupd z nfr (n0 (N := N))). assert (Lz' : zlen z' = (nfr + 1)%Z) by (unfold z'; now rewrite zlen_zupd).
    assert (Vz' : forall j, (0 <= j < nfr + 1)%Z -> zn 0 z' j = if (j <? nfr)%Z then ce n Q (zn 0%Z l j) nz else 0).
    { intros j Hj. unfold z'. rewrite zn_zupd by lia. destruct (Z.eqb_spec j nfr), (Z.ltb_spec j nfr); try lia; [reflexivity|]. apply Vz. lia. }
    destruct (mo_idxb _ _ _ _ _ _ MO (p_free s2) l (p_free s2) l n1 n0 z' (junk (nfr + 1)) (nfr + 1)%Z (nfr + 1)%Z) as (Hz & EHz & LHz & VHz & _);
      [exact (wf_ina _ _ _ Wb')|exact Rl|exact (wf_ina _ _ _ Wb')|exact Rl|now left|now left|rcar; lia|rewrite J; lia|lia|lia|].
    rewrite EHz. cbn [bind]. rewrite J in LHz by lia. rewrite El in VHz.
    assert (VH : forall p, (0 <= p < nfr)%Z -> zn 0 Hz p = lsum l0 (fun v => Hm (zz l0 p) v * ce n Q v nz)).
    { intros p Hp. rewrite VHz by lia. rnum. rewrite Rmult_0_l, Rplus_0_l, Rmult_1_l. rewrite rsum_last by lia. rewrite Vz' by lia. rewrite Z.ltb_irrefl, Rmult_0_r, Rplus_0_r.
      rewrite <- rsum_list. apply rsum_ext. intros q Hq. rewrite Vz' by lia. destruct (Z.ltb_spec q nfr); [|lia]. now rewrite !Zl by lia. }
    destruct (mo_col _ _ _ _ _ _ MO number (p_free s2) l z') as (zc & Ezc & Lzc & Vzc & _); [exact (wf_ina _ _ _ Wb')|exact Rl|exact Rn|rcar; lia|].
    rewrite Ezc. cbn [bind]. assert (Lzc' : zlen zc = (nfr + 1)%Z) by exact (eq_trans Lzc Lz').
    assert (Vc : forall p, (0 <= p < nfr)%Z -> zn 0 zc p = Hm (zz l0 p) number) by (intros p Hp; rewrite Vzc by lia; now rewrite Zl by lia).
    assert (DD : zhz l Hm (ce n Q) nz nz = Hm number number * z2 * z2 + rsum 0 nfr (fun j => ce n Q (zz l0 j) nz * (zn 0 Hz j + 2 * z2 * zn 0 zc j))).
    { unfold l. rewrite (zhz_app_nz n) by auto. fold z2. f_equal. rewrite <- rsum_list. fold nfr. apply rsum_ext. intros j Hj. now rewrite VH, Vc by lia. }
    apply wp_bind.
    refine (wp_any _ (fun c => exists R1 r, c = Next (Hm number number * z2 * z2 - rsum 0 nz (fun k => r k * r k), R1) /\ zlen R1 = (n * n)%Z /\ (forall p, (0 <= p < nz)%Z -> matvec nz (utrans true (triu (q_R (p_b s)) n)) r p = zhz l Hm (ce n Q) p nz) /\
      (forall p q, (0 <= p < n)%Z -> (0 <= q < n)%Z -> ce n R1 p q = if ((q =? nz) && (p <? nz))%Z then r p else ce n (q_R (p_b s)) p q)) _ _ _).
    { destruct (Z.ltb_spec 0 nz) as [Pz|Pz].
      - apply wp_bind.
        match goal with |- wp (for_up 0 nfr ?b0 ?a0) _ => replace (for_up 0 nfr b0 a0) with (for_up 0 nfr (fun j a => jj <- rd (p_FR s2) j ;; hv <- (hj <- rd Hz j ;; zj <- rd zc j ;; Ok (hj + z2 * zj)) ;; for_up 0 nz (fun i a => v <- rd a i ;; q <- rd Q (jj + n * i) ;; wr a i (v + q * hv)) a) a0) end.
        2:{ apply for_up_ext. intros j a. destruct (rd (p_FR s2) j) as [jj| |]; cbn [bind]; [|reflexivity..]. rcar. destruct (rd Hz j) as [hj| |]; cbn [bind]; [|reflexivity..]. now destruct (rd zc j). }
        eapply wp_mono; [apply (accP eps zero infty n nz nfr (p_FR s2) l0 Q [] (fun j => zn 0 Hz j + z2 * zn 0 zc j)); auto; try lia|].
        { intros j Hj. rewrite RD by lia. now rewrite Zl. }
        { intros j Hj. rewrite (rd_ok 0) by (rcar; lia). cbn [bind]. rewrite (rd_ok 0) by (rcar; lia). reflexivity. }
        intros w (Lw & Vw). cbv beta. unfold p_backsolveR. change (pV s3) with (st_n b). rewrite Enb.
        replace (pZ s3) with (nfr + 1 - nac)%Z by (unfold pZ; f_equal; [symmetry; rewrite <- El; exact (rep_len _ _ (wf_ina _ _ _ Wb'))|symmetry; exact EC]).
        replace (nfr + 1 - nac - 1)%Z with nz by lia. change (q_R (p_b s3)) with (q_R (p_b s)).
        eapply wp_mono; [apply (rcol_ok eps zero infty zero_0 junk J n nz (q_R (p_b s)) w (Hm number number * z2 * z2)); auto; lia|]. intros c0 (r & R1 & -> & L1 & SOL & V1).
        exists R1, r. split; [reflexivity|]. split; [exact (eq_trans L1 LR)|]. split; [|exact V1].
        intros p Hp. rewrite SOL, Vw by lia. unfold l. rewrite zhz_app. destruct (CL p Hp) as (-> & _). rewrite Rmult_0_l, Rplus_0_r. rewrite <- rsum_list. fold nfr. apply rsum_ext. intros j Hj. now rewrite VH, Vc by lia.
      - apply wp_ok. exists (q_R (p_b s)), (fun _ => 0). split; [rewrite rsum_empty by lia; now rewrite Rminus_0_r|]. split; [exact LR|]. split; [intros; lia|].
        intros p q Hp Hq. destruct (Z.ltb_spec p nz); [lia|]. now rewrite andb_false_r. }
    intros c0 (R1 & r & -> & L1 & SOL & V1).
    rewrite (sum_loop 0 nfr _ (fun j => ce n Q (zz l0 j) nz * (zn 0 Hz j + 2 * z2 * zn 0 zc j))); [|lia|].
    2:{ intros j v Hj. rewrite RD by lia. cbn [bind]. rcar. rewrite (rd_ok 0) by (rewrite LQ3; apply IQ; lia). cbn [bind]. rewrite (rd_ok 0) by (rcar; lia). cbn [bind]. rewrite (rd_ok 0) by (rcar; lia). cbn [bind].
        rewrite Zl by lia. change (@nlit N 2 0) with (Rlit 2 0). change (Rlit 2 0) with 2. reflexivity. }
    cbn [bind]. apply wp_ok. exists R1, r. split; [|auto]. do 2 f_equal. rewrite DD. ring. }
  intros c0 (R1 & r & -> & L1 & SOL & V1). destruct (EXT R1 r L1 SOL V1) as (RG & CR). cbv zeta in CR.
  set (rho := zhz l Hm (ce n Q) nz nz - rsum 0 nz (fun k => r k * r k)) in *.
  assert (IN : (0 <= nz + n * nz < zlen R1)%Z) by (apply (ce_in n R1 (nz + 1)); lia).
  destruct (storeRho_ok eps zero infty zero_0 n nz (p_opts s) allowFlip rho R1 ltac:(lia) L1) as (d & Ed & PD). rewrite Ed. cbn [bind]. cbv zeta in PD. fold fl in PD.
  destruct d as [R2| | |]; [| | |contradiction].
  - destruct PD as (v & -> & P1 & P2 & P3). apply wp_ok.
    apply (MV (zupd R1 (nz + n * nz) v) rho); auto; try discriminate.
    + now rewrite zlen_zupd.
    + intros _ FAC. now apply CR.
    + intros _ FAC Pos. destruct fl; [destruct (P1 eq_refl) as (_ & ->)|rewrite (P2 eq_refl Pos)]; now apply CR.
    + intros _ E. now apply P1.
    + intros _ E Neg. destruct (P3 E Neg) as (-> & ->). split; [reflexivity|]. rewrite ce_upd by lia. now rewrite !Z.eqb_refl.
    + intros _ Pf Pe. apply RG. destruct fl; [destruct (P1 eq_refl) as (Pr & ->); specialize (Pf eq_refl); apply Rgt_not_eq, sqrt_lt_R0; lra|].
      destruct (Rle_lt_dec rho 0) as [Le|Lt]; [destruct (P3 eq_refl Le) as (_ & ->); lra|rewrite (P2 eq_refl Lt); now apply Rgt_not_eq, sqrt_lt_R0].
    + intros _ p q Hp Hq. rewrite ce_upd by lia. rewrite V1 by lia. destruct (Z.eqb_spec q nz); [lia|]. now rewrite andb_false_r.
  - destruct PD as (EFl & Le). eapply wp_mono.
    { apply (p_flipBound_ok n m Am s _ l0 l1 k0 k1 number W F Hin). exists f, Q, T, R1, b. split; [reflexivity|]. split; [auto|]. rewrite <- EsT. auto. }
    intros [r2 s'] (-> & FLP & PW1 & PW2). exists T, Q, R1, f, rho. split; [exact TQF|]. split; [exact CL|]. split; [intros _ FAC; now apply CR|]. right. left. auto 8.
  - destruct PD as (E1 & E2 & E3). apply wp_ok. exists T, Q, R1, f, rho. split; [exact TQF|]. split; [exact CL|]. split; [intros _ FAC; now apply CR|]. right. right. auto 6.
Qed.
End X11.
