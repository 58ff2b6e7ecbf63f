(** Exact step direction of QProblemB. *)
From Verif Require Import Base Types Num Options Indexlist IndexlistProofs Loops RSum LinSpec SafeLib SubjectTo SubjectToProofs SubjectToProofs2
  Flipper PropFlipper Matrices MatLib MatSafe LinAlg PropLinAlg QProblemB QPBSafe QPBSafe2 QPBX1 QPBX2 QPBX3 QPBX4 QPBX5.
Local Open Scope R_scope.

Section X7.
Variables eps zero infty : R.
Notation N := (RNumT eps zero infty).
Notation arr := (list R).

Ltac rdx := rewrite (rd_ok 0) by (rcar; rewrite ?zlen_zupd; lia); cbn [bind].
Ltac wrx := rewrite wr_ok by (rcar; rewrite ?zlen_zupd; lia); cbn [bind].

Section Dir.
Variables (n : Z) (s : qpb N) (l0 l1 : list Z) (Hm : Z -> Z -> R).
Hypothesis W : qwf n s l0 l1.
Hypothesis HE : hess eps zero infty n s Hm.
Hypothesis CH : factor n (zlen l0) (q_R s) (sub l0 Hm).

Let nd0 : NoDup l0 := rep_NoDup _ _ (w_rep0 _ _ _ _ W).
Let nd1 : NoDup l1 := rep_NoDup _ _ (w_rep1 _ _ _ _ W).
Lemma in0 p : (0 <= p < zlen l0)%Z -> (0 <= zz l0 p < n)%Z.
Proof. intros Hp. apply (w_in0 _ _ _ _ W), zn_In, Hp. Qed.
Lemma in1 p : (0 <= p < zlen l1)%Z -> (0 <= zz l1 p < n)%Z.
Proof. intros Hp. apply (w_in1 _ _ _ _ W), zn_In, Hp. Qed.
Lemma apart p q : (0 <= p < zlen l0)%Z -> (0 <= q < zlen l1)%Z -> zz l0 p <> zz l1 q.
Proof.
  intros Hp Hq E. pose proof (proj1 (wf_in0 _ _ _ (w_st _ _ _ _ W) (zz l0 p)) (zn_In 0%Z l0 p Hp)) as (_ & A).
  pose proof (proj1 (wf_in1 _ _ _ (w_st _ _ _ _ W) (zz l1 q)) (zn_In 0%Z l1 q Hq)) as (_ & B). rewrite <- E, A in B. discriminate B.
Qed.

(** two triangular solves with the factor *)
Lemma solve_twice (a : arr) : (zlen l0 <= zlen a)%Z ->
  wp ('(rv, tmp) <- qb_backsolveR (N := N) s None true false a ;;
      if negb (rv =r? SUCCESSFUL_RETURN) then Ok (Brk tmp) else
      '(rv, tmp) <- qb_backsolveR (N := N) s None false false tmp ;;
      if negb (rv =r? SUCCESSFUL_RETURN) then Ok (Brk tmp) else Ok (Next tmp))
    (fun c : ctl arr arr => match c with
      | Brk tmp => zlen tmp = zlen a
      | Next tmp => zlen tmp = zlen a /\ forall p, (0 <= p < zlen l0)%Z -> matvec (zlen l0) (sub l0 Hm) (zn 0 tmp) p = zn 0 a p
      end).
Proof.
  intros La. unfold qb_backsolveR. cbn iota. rewrite (w_nv _ _ _ _ W), (w_nfr _ _ _ _ W).
  destruct CH as (G & D). pose proof (w_len0 _ _ _ _ W) as Ln. pose proof (zlen_nonneg l0) as L0.
  pose proof (w_R _ _ _ _ W) as LR. set (m := zlen l0) in *.
  assert (B : (m + n * (m - 1) <= zlen (q_R s))%Z) by (etransitivity; [|apply Z.eq_le_incl; symmetry; exact LR]; nia).
  destruct (backsolveR_gen eps zero infty n m (q_R s) None true a) as (r1 & a1 & E1 & L1 & _ & P1); [right; exact D|lia|exact B|lia|exact I|].
  rcar. rewrite E1. cbn [bind]. destruct P1 as [(-> & P1)|(-> & _)]; [|cbn; exact L1]. change (negb (SUCCESSFUL_RETURN =r? SUCCESSFUL_RETURN)) with false. cbn iota.
  destruct (backsolveR_gen eps zero infty n m (q_R s) None false a1) as (r2 & a2 & E2 & L2 & _ & P2); [right; exact D|lia|exact B|lia|exact I|].
  rcar. rewrite E2. cbn [bind]. destruct P2 as [(-> & P2)|(-> & _)]; [|cbn; rcar; lia]. change (negb (SUCCESSFUL_RETURN =r? SUCCESSFUL_RETURN)) with false. cbn [wp].
  split; [rcar; lia|]. intros p Hp.
  transitivity (matvec m (utrans true (triu (q_R s) n)) (zn 0 a1) p); [|now apply P1].
  unfold matvec at 2. cbn [utrans]. rewrite (rsum_ext 0 m _ (fun k => triu (q_R s) n k p * matvec m (triu (q_R s) n) (zn 0 a2) k)).
  2:{ intros k Hk. f_equal. symmetry. exact (P2 k Hk). }
  unfold matvec. rewrite (rsum_ext 0 m (fun k => triu (q_R s) n k p * _) (fun k => rsum 0 m (fun j => triu (q_R s) n k p * (triu (q_R s) n k j * zn 0 a2 j)))).
  2:{ intros k Hk. now rewrite rsum_scal. }
  rewrite rsum_swap. apply rsum_ext. intros j Hj. rewrite <- (G p j) by auto. rewrite <- rsum_scal_r. apply rsum_ext. intros; ring.
Qed.

(** coupling of the fixed variables into the equations of the free ones *)
Definition cpl (xFX : arr) (i : Z) : R := rsum 0 (zlen l1) (fun q => Hm i (zz l1 q) * zn 0 xFX q).
Lemma cpl_zero xFX i : (forall q, (0 <= q < zlen l1)%Z -> zn 0 xFX q = 0) -> cpl xFX i = 0.
Proof. intros Z0. unfold cpl. apply rsum_0. intros q Hq. rewrite Z0 by exact Hq. ring. Qed.
Lemma scalar_hess : plainH s = false -> exists c, (forall i j, Hm i j = c * delta i j) /\
  c = match q_htype s with HST_ZERO => if usingReg s then q_regVal s else 0 | _ => 1 end.
Proof.
  unfold plainH, is_hst, hess in *. destruct (q_htype s); try discriminate; intros _.
  - eexists. split; [|reflexivity]. intros i j. rewrite HE. destruct (usingReg s); ring.
  - exists 1. split; [|reflexivity]. intros i j. rewrite HE. ring.
Qed.
Lemma cpl_scalar xFX p : plainH s = false -> (0 <= p < zlen l0)%Z -> cpl xFX (zz l0 p) = 0.
Proof.
  intros P Hp. destruct (scalar_hess P) as (c & Hc & _). unfold cpl. apply rsum_0. intros q Hq. rewrite Hc. rewrite delta_ne by (now apply apart). ring.
Qed.

Variable d : deltas N.
Hypothesis DW : dwf n d.
Variable isZ : bool.

Definition fixed_shift (i : Z) : R :=
  if isZ then 0 else if is_sts (sv eps zero infty s i) ST_LOWER then zn 0 (dl_lb d) i else zn 0 (dl_ub d) i.

Lemma sd_xFX_exact : wp (sd_xFX (N := N) s d isZ) (fun a : arr => zlen a = n /\ forall q, (0 <= q < zlen l1)%Z -> zn 0 a q = fixed_shift (zz l1 q)).
Proof.
  unfold sd_xFX. rewrite (w_nfx _ _ _ _ W). pose proof (w_len1 _ _ _ _ W) as Ln. pose proof (zlen_nonneg l1). destruct DW.
  apply (wp_fill (0:R) (fun q => fixed_shift (zz l1 q))); [rcar; lia| |].
  - intros i a Hi La. unfold fixed_shift. destruct isZ; [apply wr_ok; rcar; lia|]. unfold FX_idx. rewrite (rd_rep _ l1) by (auto; apply (w_rep1 _ _ _ _ W)). cbn [bind].
    pose proof (in1 i Hi) as R. fold (zz l1 i). rewrite (wf_status _ _ _ n s l0 l1 _ W R). cbn [bind].
    destruct (is_sts _ _); rdx; apply wr_ok; rcar; lia.
  - intros a La V _. split; [rcar; congruence|]. exact V.
Qed.

Lemma sd_rhs_exact (tmp : arr) : zlen tmp = n ->
  wp (sd_rhs (N := N) s (dl_g d) tmp) (fun a : arr => zlen a = n /\ forall p, (0 <= p < zlen l0)%Z -> zn 0 a p = - zn 0 (dl_g d) (zz l0 p)).
Proof.
  intros Lt. unfold sd_rhs. rewrite (w_nfr _ _ _ _ W). pose proof (w_len0 _ _ _ _ W) as Ln. pose proof (zlen_nonneg l0). destruct DW.
  apply (wp_fill (0:R) (fun p => - zn 0 (dl_g d) (zz l0 p))); [rcar; lia| |].
  - intros i a Hi La. unfold FR_idx. rewrite (rd_rep _ l0) by (auto; apply (w_rep0 _ _ _ _ W)). cbn [bind]. pose proof (in0 i Hi) as R. fold (zz l0 i).
    rdx. apply wr_ok. rcar; lia.
  - intros a La V _. split; [rcar; congruence|]. exact V.
Qed.

(** equations of the free variables *)
Definition eqF (xFX xFR : arr) : Prop :=
  forall p, (0 <= p < zlen l0)%Z -> matvec (zlen l0) (sub l0 Hm) (zn 0 xFR) p + cpl xFX (zz l0 p) + zn 0 (dl_g d) (zz l0 p) = 0.

(** what one round may assume: [tmp] is the right-hand side for the correction of [xFR] *)
Definition pending (xFX : arr) (r : Z) (tmp xFR : arr) : Prop := zlen tmp = n /\ zlen xFR = n /\
  if (r =? 0)%Z then (forall p, (0 <= p < zlen l0)%Z -> zn 0 tmp p = - zn 0 (dl_g d) (zz l0 p) /\ zn 0 xFR p = 0)
  else eqF xFX xFR /\ ((0 < o_numRefinementSteps (q_opts s))%Z -> forall p, (0 <= p < zlen l0)%Z -> zn 0 tmp p = 0).

Lemma maxAbs_total m (a : arr) r : (0 <= m <= zlen a)%Z -> wp (maxAbs (N := N) m a r) (fun _ => True).
Proof. intros Hm0. unfold maxAbs. apply wp_for_inv with (I := fun _ => True); auto. intros i v Hi _. rdx. exact I. Qed.

Lemma theH_plain : plainH s = true -> exists M, q_theH (N := N) s = Ok M /\ mat_ok eps zero infty n M Hm.
Proof. intros P. destruct (hess_plain eps zero infty n s Hm HE P) as (M & _ & E & K). eauto. Qed.

Lemma sd_round_exact (xFX : arr) r (tmp xFR : arr) :
  zlen xFX = n -> (isZ = true -> forall q, (0 <= q < zlen l1)%Z -> zn 0 xFX q = 0) ->
  (q_htype s = HST_ZERO -> l0 = [] \/ 0 < o_epsIterRef (q_opts s) \/ o_numRefinementSteps (q_opts s) = 0%Z) ->
  (0 <= r <= o_numRefinementSteps (q_opts s))%Z -> pending xFX r tmp xFR ->
  wp (sd_round (N := N) s d isZ xFX r (tmp, xFR)) (fun c => match c with
    | Next (tmp', xFR') => pending xFX (r + 1) tmp' xFR'
    | Brk (rv, tmp', xFR') => zlen tmp' = n /\ zlen xFR' = n /\ (rv = RET_STEPDIRECTION_FAILED_CHOLESKY \/ (rv = SUCCESSFUL_RETURN /\ eqF xFX xFR'))
    end).
Proof.
  intros Lx IZ ZR Hr (Lt & LF & PE). unfold sd_round. cbv zeta. rewrite (w_nfr _ _ _ _ W), (w_nfx _ _ _ _ W).
  pose proof (w_len0 _ _ _ _ W) as Ln0. pose proof (w_len1 _ _ _ _ W) as Ln1. pose proof (zlen_nonneg l0) as P0. pose proof (zlen_nonneg l1) as P1.
  apply wp_bind. set (m := zlen l0) in *.
  (* the solve *)
  eapply wp_mono with (P := fun c : ctl arr arr => match c with
      | Brk t => zlen t = n
      | Next t => zlen t = n /\ forall p, (0 <= p < m)%Z -> matvec m (sub l0 Hm) (zn 0 t) p =
          if (r =? 0)%Z then - zn 0 (dl_g d) (zz l0 p) - cpl xFX (zz l0 p) else zn 0 tmp p end).
  { destruct (Z.ltb_spec 0 m) as [Pos|Np]; [|cbn; split; [exact Lt|intros; lia]].
    apply wp_bind. eapply wp_mono with (P := fun t : arr => zlen t = n /\ forall p, (0 <= p < m)%Z -> zn 0 t p = if (r =? 0)%Z then - zn 0 (dl_g d) (zz l0 p) - cpl xFX (zz l0 p) else zn 0 tmp p).
    { assert (Keep : (plainH s && negb isZ && (r =? 0)%Z)%bool = false -> forall p, (0 <= p < m)%Z -> zn 0 tmp p = if (r =? 0)%Z then - zn 0 (dl_g d) (zz l0 p) - cpl xFX (zz l0 p) else zn 0 tmp p).
      { intros B p Hp. destruct (r =? 0)%Z eqn:Er; [|reflexivity]. destruct (PE p Hp) as (-> & _).
        assert (C0 : cpl xFX (zz l0 p) = 0); [|lra]. destruct (plainH s) eqn:PH; [|now apply cpl_scalar]. destruct isZ; [|discriminate B]. apply cpl_zero. auto. }
      destruct (plainH s && negb isZ && (r =? 0)%Z)%bool eqn:B; [|cbn; split; [exact Lt|exact (Keep eq_refl)]]. clear Keep.
      apply andb_prop in B as (B & Er). apply andb_prop in B as (PH & B). destruct (theH_plain PH) as (M & EM & MO). rewrite EM. cbn [bind].
      destruct (mo_idx _ _ _ _ _ _ MO _ _ _ _ (nm1 (N := N)) xFX tmp (zlen l1) m (w_rep0 _ _ _ _ W) (w_in0 _ _ _ _ W) (w_rep1 _ _ _ _ W) (w_in1 _ _ _ _ W) (or_intror eq_refl) ltac:(lia) ltac:(lia) P1 P0) as (y2 & E2 & L2 & V2 & _).
      rewrite E2. cbn [wp]. split; [rcar; lia|]. rewrite Er in PE |- *. intros p Hp. rewrite V2 by exact Hp. destruct (PE p Hp) as (-> & _). rewrite nm1_R. unfold cpl. fold (zz l0 p).
      transitivity (- zn 0 (dl_g d) (zz l0 p) + -1 * rsum 0 (zlen l1) (fun q => Hm (zz l0 p) (zz l1 q) * zn 0 xFX q)); [reflexivity|ring]. }
    intros t (L1 & V1). eapply wp_mono; [apply (solve_twice t); rcar; lia|]. intros [t2|t2].
    - intros (L2 & V2). split; [rcar; lia|]. intros p Hp. rewrite V2 by exact Hp. now apply V1.
    - intros L2. rcar; lia. }
  intros [t|t].
  2:{ intros L. cbn. auto. }
  intros (L1 & V1).
  (* the update *)
  apply wp_bind. apply (wp_map (0:R) (fun p v => v + zn 0 t p)); [rcar; lia| |].
  { intros i a Hi La. rdx. rdx. apply wr_ok. rcar; lia. }
  intros x2 Lx2 V2 _. assert (Lx2' : zlen x2 = n) by (rcar; lia).
  assert (EQ : eqF xFX x2).
  { intros p Hp. fold m in Hp. unfold matvec. fold m.
    rewrite (rsum_ext 0 m _ (fun k => sub l0 Hm p k * zn 0 xFR k + sub l0 Hm p k * zn 0 t k)) by (intros k Hk; rewrite V2 by exact Hk; ring).
    rewrite rsum_plus. specialize (V1 p Hp). unfold matvec in V1. rewrite V1. destruct (r =? 0)%Z eqn:Er.
    - rewrite rsum_0; [lra|]. intros k Hk. destruct (PE k Hk) as (_ & ->). ring.
    - destruct PE as (PE1 & PE2). specialize (PE1 p Hp). unfold matvec in PE1. fold m in PE1. rewrite PE2; [|apply Z.eqb_neq in Er; lia|exact Hp]. lra. }
  assert (R1 : (r + 1 =? 0)%Z = false) by (apply Z.eqb_neq; lia).
  destruct (Z.ltb_spec 0 (o_numRefinementSteps (q_opts s))) as [NS|NS]; cbn [negb].
  2:{ cbn [wp]. split; [exact L1|]. split; [exact Lx2'|]. rewrite R1. split; [exact EQ|lia]. }
  (* the residual *)
  apply wp_bind. eapply wp_mono; [apply (sd_rhs_exact t L1)|]. intros t3 (L3 & V3).
  assert (Fin : forall (t4 : arr) (rn : car N), zlen t4 = n -> (forall p, (0 <= p < m)%Z -> zn 0 t4 p = 0) ->
    wp (if rn <' o_epsIterRef (q_opts s) then Ok (Brk (SUCCESSFUL_RETURN, t4, x2)) else Ok (Next (t4, x2)))
     (fun c : ctl (arr * arr) (returnValue * arr * arr) => match c with
      | Next (tmp', xFR') => pending xFX (r + 1) tmp' xFR'
      | Brk (rv, tmp', xFR') => zlen tmp' = n /\ zlen xFR' = n /\ (rv = RET_STEPDIRECTION_FAILED_CHOLESKY \/ (rv = SUCCESSFUL_RETURN /\ eqF xFX xFR'))
      end)).
  { intros t4 rn L4 Z4. destruct (_ <' _); cbn [wp]; [auto|]. split; [exact L4|]. split; [exact Lx2'|]. rewrite R1. auto. }
  assert (Plain : plainH s = true -> wp
    (M <- q_theH (N := N) s ;;
     tmp0 <- m_times_idx (N := N) M (st_ina (q_bounds s)) (st_ina (q_bounds s)) 1 nm1 x2 m n1 t3 m ;;
     tmp1 <- m_times_idx (N := N) M (st_ina (q_bounds s)) (st_act (q_bounds s)) 1 nm1 xFX (zlen l1) n1 tmp0 m ;;
     rn <- maxAbs (N := N) m tmp1 n0 ;; Ok (tmp1, rn))
    (fun '((t4, _) : arr * R) => zlen t4 = n /\ forall p, (0 <= p < m)%Z -> zn 0 t4 p = 0)).
  { intros PH. destruct (theH_plain PH) as (M & EM & MO). rewrite EM. cbn [bind].
    destruct (mo_idx _ _ _ _ _ _ MO _ _ _ _ (nm1 (N := N)) x2 t3 m m (w_rep0 _ _ _ _ W) (w_in0 _ _ _ _ W) (w_rep0 _ _ _ _ W) (w_in0 _ _ _ _ W) (or_intror eq_refl) ltac:(fold m; lia) ltac:(fold m; lia) P0 P0) as (y1 & E1 & Ly1 & U1 & _).
    rewrite E1. cbn [bind]. assert (Ly1' : (zlen l0 <= zlen (y1 : arr))%Z) by (rcar; fold m; lia).
    destruct (mo_idx _ _ _ _ _ _ MO _ _ _ _ (nm1 (N := N)) xFX y1 (zlen l1) m (w_rep0 _ _ _ _ W) (w_in0 _ _ _ _ W) (w_rep1 _ _ _ _ W) (w_in1 _ _ _ _ W) (or_intror eq_refl) ltac:(lia) Ly1' P1 P0) as (y2 & E2 & Ly2 & U2 & _).
    rewrite E2. cbn [bind]. assert (Ly2' : zlen (y2 : arr) = n) by (etransitivity; [exact Ly2|]; etransitivity; [exact Ly1|]; exact L3).
    apply wp_bind. eapply wp_mono; [apply (maxAbs_total m y2); rcar; lia|]. intros rn _. cbn [wp]. split; [exact Ly2'|].
    intros p Hp. rewrite U2 by exact Hp. rewrite U1 by exact Hp. rewrite nm1_R. specialize (EQ p Hp). unfold matvec, sub, cpl in EQ. fold m in EQ. specialize (V3 p Hp). fold m in U1.
    transitivity (zn 0 t3 p + -1 * rsum 0 m (fun q => Hm (zz l0 p) (zz l0 q) * zn 0 x2 q) + -1 * rsum 0 (zlen l1) (fun q => Hm (zz l0 p) (zz l1 q) * zn 0 xFX q)); [reflexivity|].
    rewrite V3. lra. }
  apply wp_bind. destruct (q_htype s) eqn:HT.
  all: try (eapply wp_mono; [apply Plain; unfold plainH, is_hst; rewrite HT; reflexivity|]; intros (t4, rn) (L4 & Z4); now apply Fin).
  - (* zero *) cbn [wp]. destruct (ZR eq_refl) as [E0|[E0|E0]]; [apply Fin; [exact L3|unfold m; rewrite E0; unfold zlen; cbn; lia]| |lia].
    rnum. destruct (Rltb_spec 0 (o_epsIterRef (q_opts s))) as [Y|Y]; [|contradiction]. cbn [wp]. auto.
  - (* identity *) assert (PH : plainH s = false) by (unfold plainH, is_hst; rewrite HT; reflexivity).
    apply wp_bind. apply (wp_map (0:R) (fun p v => v - zn 0 x2 p)); [rcar; lia| |].
    { intros i a Hi La. rdx. rdx. apply wr_ok. rcar; lia. }
    intros t4 L4 V4 _. assert (L4' : zlen t4 = n) by (rcar; lia). apply wp_bind. eapply wp_mono; [apply (maxAbs_total m t4); lia|]. intros rn _. cbn [wp]. apply Fin; [exact L4'|].
    intros p Hp. rewrite V4 by exact Hp. rewrite V3 by exact Hp. specialize (EQ p Hp). rewrite cpl_scalar in EQ by auto.
    unfold hess in HE. rewrite HT in HE. unfold matvec, sub in EQ. fold m in EQ.
    rewrite (rsum_ext 0 m _ (fun k => delta p k * zn 0 x2 k)) in EQ by (intros k Hk; rewrite HE; rewrite delta_nodup by auto; reflexivity).
    rewrite rsum_pick in EQ by exact Hp. lra.
Qed.

Lemma sd_yFX_exact (xFX xFR : arr) : zlen xFX = n -> zlen xFR = n -> (isZ = true -> forall q, (0 <= q < zlen l1)%Z -> zn 0 xFX q = 0) ->
  wp (sd_yFX (N := N) s d isZ xFX xFR) (fun a : arr => zlen a = n /\ forall q, (0 <= q < zlen l1)%Z ->
    zn 0 a q = zn 0 (dl_g d) (zz l1 q) + rsum 0 (zlen l0) (fun p => Hm (zz l1 q) (zz l0 p) * zn 0 xFR p) + cpl xFX (zz l1 q)).
Proof.
  intros Lx LF IZ. unfold sd_yFX. rewrite (w_nfr _ _ _ _ W), (w_nfx _ _ _ _ W).
  pose proof (w_len0 _ _ _ _ W) as Ln0. pose proof (w_len1 _ _ _ _ W) as Ln1. pose proof (zlen_nonneg l0) as P0. pose proof (zlen_nonneg l1) as P1.
  pose proof (dw_g _ _ DW) as Dg. pose proof (dw_yFX _ _ DW) as Dy. cbn [car RNumT] in Dg, Dy.
  destruct (Z.leb_spec (zlen l1) 0) as [E0|E0]; [cbn [wp]; split; [exact Dy|intros; lia]|].
  assert (Plain : plainH s = true -> wp
    (a <- for_up 0 (zlen l1) (fun i a => ii <- rd (FX_idx s) i ;; v <- rd (dl_g d) ii ;; wr a i v) (dl_yFX d) ;;
     M <- q_theH (N := N) s ;;
     a <- m_times_idx (N := N) M (st_act (q_bounds s)) (st_ina (q_bounds s)) 1 n1 xFR (zlen l0) n1 a (zlen l1) ;;
     if isZ then Ok a else
     m_times_idx (N := N) M (st_act (q_bounds s)) (st_act (q_bounds s)) 1 n1 xFX (zlen l1) n1 a (zlen l1))
    (fun a : arr => zlen a = n /\ forall q, (0 <= q < zlen l1)%Z ->
      zn 0 a q = zn 0 (dl_g d) (zz l1 q) + rsum 0 (zlen l0) (fun p => Hm (zz l1 q) (zz l0 p) * zn 0 xFR p) + cpl xFX (zz l1 q))).
  { intros PH. apply wp_bind. apply (wp_fill (0:R) (fun q => zn 0 (dl_g d) (zz l1 q))); [rcar; lia| |].
    { intros i a Hi La. unfold FX_idx. rewrite (rd_rep _ l1) by (auto; apply (w_rep1 _ _ _ _ W)). cbn [bind]. pose proof (in1 i Hi). fold (zz l1 i).
      rdx. apply wr_ok. rcar; lia. }
    intros a La Va _. destruct (theH_plain PH) as (M & EM & MO). rewrite EM. cbn [bind].
    assert (La' : (zlen l1 <= zlen (a : arr))%Z) by (rcar; lia).
    destruct (mo_idx _ _ _ _ _ _ MO _ _ _ _ (n1 (N := N)) xFR a (zlen l0) (zlen l1) (w_rep1 _ _ _ _ W) (w_in1 _ _ _ _ W) (w_rep0 _ _ _ _ W) (w_in0 _ _ _ _ W) (or_introl eq_refl) ltac:(lia) La' P0 P1) as (y1 & E1 & Ly1 & U1 & _).
    rewrite E1. cbn [bind]. assert (Ly1' : zlen (y1 : arr) = n) by (rcar; lia).
    assert (U1' : forall q, (0 <= q < zlen l1)%Z -> zn 0 (y1 : arr) q = zn 0 (dl_g d) (zz l1 q) + rsum 0 (zlen l0) (fun p => Hm (zz l1 q) (zz l0 p) * zn 0 xFR p)).
    { intros q Hq. rewrite U1 by exact Hq. rewrite Va by exact Hq.
      transitivity (zn 0 (dl_g d) (zz l1 q) + 1 * rsum 0 (zlen l0) (fun p => Hm (zz l1 q) (zz l0 p) * zn 0 xFR p)); [reflexivity|ring]. }
    destruct isZ eqn:Ez.
    - cbn [wp]. split; [exact Ly1'|]. intros q Hq. rewrite U1' by exact Hq. rewrite cpl_zero by auto. ring.
    - assert (Ly2 : (zlen l1 <= zlen (y1 : arr))%Z) by lia.
      destruct (mo_idx _ _ _ _ _ _ MO _ _ _ _ (n1 (N := N)) xFX y1 (zlen l1) (zlen l1) (w_rep1 _ _ _ _ W) (w_in1 _ _ _ _ W) (w_rep1 _ _ _ _ W) (w_in1 _ _ _ _ W) (or_introl eq_refl) ltac:(lia) Ly2 P1 P1) as (y2 & E2 & L2 & U2 & _).
      rewrite E2. cbn [wp]. split; [etransitivity; [exact L2|exact Ly1']|]. intros q Hq. rewrite U2 by exact Hq. unfold cpl.
      transitivity (zn 0 (y1 : arr) q + 1 * rsum 0 (zlen l1) (fun k => Hm (zz l1 q) (zz l1 k) * zn 0 xFX k)); [reflexivity|].
      rewrite U1' by exact Hq. ring. }
  destruct (q_htype s) eqn:HT.
  all: try (apply Plain; unfold plainH, is_hst; rewrite HT; reflexivity).
  all: clear Plain; assert (PH : plainH s = false) by (unfold plainH, is_hst; rewrite HT; reflexivity);
    destruct (scalar_hess PH) as (c & Hc & Ec); rewrite HT in Ec.
  all: apply (wp_fill (0:R) (fun q => zn 0 (dl_g d) (zz l1 q) + c * zn 0 xFX q)); [rcar; lia| |].
  2,4: intros a La Va _; split; [rcar; congruence|]; intros q Hq; rewrite Va by exact Hq; unfold cpl;
    rewrite (rsum_0 0 (zlen l0)) by (intros p Hp; rewrite Hc, delta_ne by (intros E; apply (apart p q Hp Hq); congruence); ring);
    rewrite (rsum_ext 0 (zlen l1) _ (fun k => delta q k * (c * zn 0 xFX k))) by (intros k Hk; rewrite Hc, delta_nodup by auto; ring);
    rewrite rsum_pick by exact Hq; ring.
  all: intros i a Hi La; unfold FX_idx; rewrite (rd_rep _ l1) by (auto; apply (w_rep1 _ _ _ _ W)); cbn [bind]; pose proof (in1 i Hi); fold (zz l1 i);
    rdx; rdx; rewrite wr_ok by (rcar; lia); f_equal; f_equal; unfold is_hst; cbn.
  - subst c. unfold usingReg. cbn. destruct (Rltb _ _); ring.
  - subst c. ring.
Qed.

Lemma rounds_exact (xFX tmp xFR : arr) : (0 <= o_numRefinementSteps (q_opts s))%Z ->
  zlen xFX = n -> (isZ = true -> forall q, (0 <= q < zlen l1)%Z -> zn 0 xFX q = 0) ->
  (q_htype s = HST_ZERO -> l0 = [] \/ 0 < o_epsIterRef (q_opts s) \/ o_numRefinementSteps (q_opts s) = 0%Z) ->
  pending xFX 0 tmp xFR ->
  wp (forb_up 0 (o_numRefinementSteps (q_opts s) + 1) (sd_round (N := N) s d isZ xFX) (tmp, xFR)) (fun c =>
    let '(rv, tmp', xFR') := match c with Next (tmp', xFR') => (SUCCESSFUL_RETURN, tmp', xFR') | Brk e => e end in
    zlen tmp' = n /\ zlen xFR' = n /\ (rv = RET_STEPDIRECTION_FAILED_CHOLESKY \/ (rv = SUCCESSFUL_RETURN /\ eqF xFX xFR'))).
Proof.
  intros Nr Lx IZ ZR P0. apply wp_forb_up with (I := fun r '(t, x) => pending xFX r t x)
    (J := fun '(rv, t, x) => zlen t = n /\ zlen x = n /\ (rv = RET_STEPDIRECTION_FAILED_CHOLESKY \/ (rv = SUCCESSFUL_RETURN /\ eqF xFX x))); [lia|exact P0| | |].
  - intros r (t & x) Hr P. apply sd_round_exact; auto. lia.
  - intros (t & x) (L1 & L2 & P). replace (o_numRefinementSteps (q_opts s) + 1 =? 0)%Z with false in P by (symmetry; apply Z.eqb_neq; lia). tauto.
  - intros ((rv & t) & x) H. exact H.
Qed.

(** step directions on both index sets *)
Record direction (d' : deltas N) : Prop := {
  di_g : dl_g d' = dl_g d; di_lb : dl_lb d' = dl_lb d; di_ub : dl_ub d' = dl_ub d; di_wf : dwf n d';
  di_fix : forall q, (0 <= q < zlen l1)%Z -> zn 0 (dl_xFX d') q = fixed_shift (zz l1 q);
  di_free : forall p, (0 <= p < zlen l0)%Z ->
    rsum 0 (zlen l0) (fun k => Hm (zz l0 p) (zz l0 k) * zn 0 (dl_xFR d') k) + cpl (dl_xFX d') (zz l0 p) + zn 0 (dl_g d) (zz l0 p) = 0;
  di_mult : forall q, (0 <= q < zlen l1)%Z ->
    rsum 0 (zlen l0) (fun k => Hm (zz l1 q) (zz l0 k) * zn 0 (dl_xFR d') k) + cpl (dl_xFX d') (zz l1 q) + zn 0 (dl_g d) (zz l1 q) = zn 0 (dl_yFX d') q
}.

Lemma stepDirection_exact : (0 <= o_numRefinementSteps (q_opts s))%Z ->
  (q_htype s = HST_ZERO -> l0 = [] \/ 0 < o_epsIterRef (q_opts s) \/ o_numRefinementSteps (q_opts s) = 0%Z) ->
  wp (determineStepDirection (N := N) d isZ s) (fun '(rv, d', s') =>
    (exists tmp : arr, zlen tmp = n /\ s' = set_q_tmp (N := N) tmp s) /\ dwf n d' /\
    ((rv = RET_STEPDIRECTION_FAILED_CHOLESKY /\ dl_g d' = dl_g d /\ dl_lb d' = dl_lb d /\ dl_ub d' = dl_ub d) \/ (rv = SUCCESSFUL_RETURN /\ direction d'))).
Proof.
  intros Nr ZR. unfold determineStepDirection. pose proof DW as [D1 D2 D3 D4 D5 D6].
  apply wp_bind. eapply wp_mono; [apply sd_xFX_exact|]. intros xFX (Lx & Vx).
  assert (IZ : isZ = true -> forall q, (0 <= q < zlen l1)%Z -> zn 0 xFX q = 0) by (intros E q Hq; rewrite Vx by exact Hq; unfold fixed_shift; now rewrite E).
  apply wp_bind. eapply wp_mono; [apply (sd_rhs_exact (q_tmp s)); apply (w_tmp _ _ _ _ W)|]. intros tmp (Lt & Vt).
  pose proof (w_len0 _ _ _ _ W) as Ln0. pose proof (zlen_nonneg l0) as P0. rewrite (w_nfr _ _ _ _ W).
  apply wp_bind. apply (wp_fill (0:R) (fun _ => 0)); [rcar; lia|intros i a Hi La; apply wr_ok; rcar; lia|]. intros xFR LF VF _.
  apply wp_bind. eapply wp_mono; [apply (rounds_exact xFX tmp xFR); auto|].
  { split; [exact Lt|]. split; [rcar; congruence|]. rewrite Z.eqb_refl. intros p Hp. rewrite Vt, VF by exact Hp. auto. }
  intros c Hc. assert (H : exists rv t x, match c with Next (t, x) => (SUCCESSFUL_RETURN, t, x) | Brk e => e end = (rv, t, x) /\
    zlen t = n /\ zlen x = n /\ (rv = RET_STEPDIRECTION_FAILED_CHOLESKY \/ (rv = SUCCESSFUL_RETURN /\ eqF xFX x))).
  { destruct c as [(t, x)|((rv, t), x)]; eauto 6. }
  clear Hc. destruct H as (rv & t & x & Ec & Lt' & LF' & Hc). rcar. rewrite Ec. cbv zeta.
  destruct Hc as [->|(-> & EQ)].
  { change (negb (RET_STEPDIRECTION_FAILED_CHOLESKY =r? SUCCESSFUL_RETURN)) with true. cbn [wp].
    split; [exists t; auto|]. split; [constructor; auto|]. left. auto. }
  change (negb (SUCCESSFUL_RETURN =r? SUCCESSFUL_RETURN)) with false. cbn iota.
  change (sd_yFX (N := N) (set_q_tmp (N := N) t s) d isZ xFX x) with (sd_yFX (N := N) s d isZ xFX x).
  apply wp_bind. eapply wp_mono; [apply (sd_yFX_exact xFX x); auto|]. intros yFX (Ly & Vy). cbn [wp].
  assert (DW' : dwf n (mkD (N := N) (dl_g d) (dl_lb d) (dl_ub d) xFX x yFX)) by (constructor; auto).
  split; [exists t; auto|]. split; [exact DW'|]. right. split; [reflexivity|]. constructor; cbn; auto.
  intros q Hq. rewrite Vy by exact Hq. ring.
Qed.

(** every sum over the variables splits into free and fixed ones *)
Lemma covered i : (forall i, (0 <= i < n)%Z -> sv eps zero infty s i <> ST_UNDEFINED) -> (0 <= i < n)%Z ->
  (exists p, (0 <= p < zlen l0)%Z /\ zz l0 p = i) \/ (exists q, (0 <= q < zlen l1)%Z /\ zz l1 q = i).
Proof.
  intros DF Hi. destruct (w_good _ _ _ _ W i Hi) as [A|[A|A]].
  - left. apply (In_zn 0%Z). apply (wf_in0 _ _ _ (w_st _ _ _ _ W)). rewrite (w_nV _ _ _ _ W). auto.
  - right. apply (In_zn 0%Z). apply (wf_in1 _ _ _ (w_st _ _ _ _ W)). rewrite (w_nV _ _ _ _ W). auto.
  - exfalso. exact (DF i Hi A).
Qed.
Lemma split_sum (f : Z -> R) : (forall i, (0 <= i < n)%Z -> sv eps zero infty s i <> ST_UNDEFINED) ->
  rsum 0 n f = rsum 0 (zlen l0) (fun p => f (zz l0 p)) + rsum 0 (zlen l1) (fun q => f (zz l1 q)).
Proof.
  intros DF. rewrite (rsum_ext 0 n f (fun i => spread l0 (fun _ => 1) i * f i + spread l1 (fun _ => 1) i * f i)).
  - rewrite rsum_plus. rewrite (spread_sum n l0) by apply (w_in0 _ _ _ _ W). rewrite (spread_sum n l1) by apply (w_in1 _ _ _ _ W).
    f_equal; apply rsum_ext; intros; ring.
  - intros i Hi. destruct (covered i DF Hi) as [(p & Hp & <-)|(q & Hq & <-)].
    + rewrite (spread_at l0) by auto. unfold spread. rewrite (rsum_0 0 (zlen l1)); [ring|]. intros q Hq. rewrite delta_ne by (intros E; apply (apart p q Hp Hq); congruence). ring.
    + rewrite (spread_at l1) by auto. unfold spread. rewrite (rsum_0 0 (zlen l0)); [ring|]. intros p Hp. rewrite delta_ne by (now apply apart). ring.
Qed.
End Dir.
End X7.
