(** Working-set changes of QProblemB: the factor of the free block stays exact
    (C39) and a bound with bad curvature is flipped (C40). *)
From Verif Require Import Base Types Num Options Indexlist IndexlistProofs Loops RSum LinSpec SafeLib SubjectTo SubjectToProofs SubjectToProofs2
  Flipper PropFlipper Matrices MatLib MatSafe LinAlg PropLinAlg QProblemB QPBSafe QPBSafe2 QPBX1 QPBX2 QPBX3.

(** ** Flipping a bound, in any arithmetic *)
Section Flip.
Context {N : Num}.
Notation arr := (list N).
Notation qpb := (qpb N).
Variable junk : Z -> arr.
Hypothesis J : junk_ok junk.

(** [s'] is [s] with bound [i] on its other side: the working-set lists and the
    factor are unchanged, and the bound that is now active has the value of the
    one that was. *)
Definition flippedx n (s s' : qpb) (l0 l1 : list Z) i : Prop :=
  qwf n s' l0 l1 /\ exists b f h lb ub, s' = set_q_ub ub (set_q_lb lb (set_q_htype h (set_q_bounds b (set_q_flip f s)))) /\
    hframe (q_htype s) h /\ same_meta (q_bounds s) b /\
    st_status b = zupd (st_status (q_bounds s)) i (flip (zs (st_status (q_bounds s)) i)) /\
    st_ina b = st_ina (q_bounds s) /\ st_act b = st_act (q_bounds s) /\
    (lb, ub) = match flip (zs (st_status (q_bounds s)) i) with
               | ST_LOWER => (zupd (q_lb s) i (zn n0 (q_ub s) i), q_ub s)
               | _ => (q_lb s, zupd (q_ub s) i (zn n0 (q_lb s) i))
               end.

Lemma flipBound_exact n (s0 s : qpb) l0 l1 i f g : qwf n s0 l0 l1 -> In i l1 -> holds n 0 f g ->
  sn_b g = Some (q_bounds s0) -> sn_R g = Some (q_R s0) ->
  zlen (q_R s) = n * n -> q_flip s = f ->
  (exists b R h, s = set_q_htype h (set_q_bounds b (set_q_R R (set_q_flip f s0))) /\ hframe (q_htype s0) h) ->
  wp (flipBound i s) (fun '(r, s') => r = SUCCESSFUL_RETURN /\ flippedx n s0 s' l0 l1 i /\ q_htype s' = q_htype s).
Proof.
  intros W Hi Hg Gb GR LR Ef (b0 & R0 & h & Es & Fh). unfold flipBound. rewrite Ef.
  pose proof (w_in1 _ _ _ _ W i Hi) as Ri. pose proof Hg as [hV hC hb hc hR hQ hT (S1 & _ & _)].
  rewrite Gb in hb. rewrite GR in hR, S1. cbn in S1.
  unfold fl_get. cbn [getArr]. rewrite hR. unfold fl_dimRQ. rewrite hV. cbn [use bind]. rewrite memcpy_full by auto. cbn [bind]. rewrite hb.
  destruct (flip_ok KBounds (q_bounds s0) l0 l1 i (w_st _ _ _ _ W) Hi) as (b & E & WB & Me & SE & EI & EA). rewrite E. cbn [bind].
  destruct (proj1 (wf_in1 _ _ _ (w_st _ _ _ _ W) i) Hi) as (_ & Ai). destruct (flip_active _ Ai) as (Af & Fo).
  assert (GV : st_getStatus b i = Ok (flip (zs (st_status (q_bounds s0)) i))).
  { rewrite (getStatus_ok b l0 l1); [|exact WB|destruct Me as (-> & _); rewrite (w_nV _ _ _ _ W); exact Ri].
    rewrite SE, (zs_upd' n s0 l0 l1) by auto. now rewrite Z.eqb_refl. }
  rewrite GV. cbn [bind].
  assert (F : forall lb ub, zlen lb = n -> zlen ub = n ->
     (lb, ub) = match flip (zs (st_status (q_bounds s0)) i) with
               | ST_LOWER => (zupd (q_lb s0) i (zn n0 (q_ub s0) i), q_ub s0)
               | _ => (q_lb s0, zupd (q_ub s0) i (zn n0 (q_lb s0) i))
               end ->
     let s' := set_q_ub ub (set_q_lb lb (set_q_bounds b (set_q_R (q_R s0) s))) in
     flippedx n s0 s' l0 l1 i /\ q_htype s' = q_htype s).
  { intros lb ub Ll Lu Ex s'. subst s'. split; [|reflexivity]. subst s.
    split. { pose proof W as []. constructor; cbn; auto.
      - destruct Me as (-> & _). assumption.
      - intros k Hk. rewrite SE, (zs_upd' n s0 l0 l1) by auto. destruct (k =? i); [unfold good_status; auto|auto].
      - eauto. }
    exists b, f, h, lb, ub. split; [destruct s0; reflexivity|]. auto 8. }
  destruct W as [Hn HnV Hst Hgd Hgg Hlb Hub HRR Hx Hy Htmp Hfl HH].
  assert (El : q_lb s = q_lb s0) by (subst s; reflexivity). assert (Eu : q_ub s = q_ub s0) by (subst s; reflexivity).
  destruct Fo as [Fo|Fo]; rewrite Fo in *; cbn [q_lb q_ub set_q_bounds set_q_R]; rewrite El, Eu.
  - rewrite (rd_ok n0) by (rewrite Hub; lia). cbn [bind]. rewrite wr_ok by (rewrite Hlb; lia). cbn [bind wp]. split; [reflexivity|].
    specialize (F (zupd (q_lb s0) i (zn n0 (q_ub s0) i)) (q_ub s0)). rewrite zlen_zupd in F.
    destruct (F Hlb Hub eq_refl) as (F1 & F2). split; [|exact F2].
    replace (set_q_ub (q_ub s0) _) with (set_q_lb (zupd (q_lb s0) i (zn n0 (q_ub s0) i)) (set_q_bounds b (set_q_R (q_R s0) s))) in F1; [exact F1|subst s; destruct s0; reflexivity].
  - rewrite (rd_ok n0) by (rewrite Hlb; lia). cbn [bind]. rewrite wr_ok by (rewrite Hub; lia). cbn [bind wp]. split; [reflexivity|].
    specialize (F (q_lb s0) (zupd (q_ub s0) i (zn n0 (q_lb s0) i))). rewrite zlen_zupd in F.
    destruct (F Hlb Hub eq_refl) as (F1 & F2). split; [|exact F2].
    replace (set_q_lb (q_lb s0) _) with (set_q_bounds b (set_q_R (q_R s0) s)) in F1; [exact F1|subst s; destruct s0; reflexivity].
Qed.

Lemma removeBound_cases n (s : qpb) l0 l1 i upd : qwf n s l0 l1 -> hk s -> In i l1 -> noUpdate s = false ->
  wp (removeBound junk i upd s) (fun '(r, s') => r = SUCCESSFUL_RETURN -> removed n s s' l0 l1 i \/ q_status s <> QPS_PREPARINGAUXILIARYQP /\ flippedx n s s' l0 l1 i).
Proof.
  intros W K Hi NU. unfold removeBound. rewrite NU. cbv zeta. rewrite (w_nv _ _ _ _ W), (w_nfr _ _ _ _ W).
  set (fb := o_enableFlippingBounds (q_opts s)).
  sstep. eapply wp_mono with (P := fun s1 => exists f, s1 = set_q_flip f s /\ (exists g, holds n 0 f g) /\
    (fb = true -> exists g, holds n 0 f g /\ sn_b g = Some (q_bounds s) /\ sn_R g = Some (q_R s))).
  { destruct fb.
    - sstep. eapply wp_mono; [apply (snapshot junk J n s l0 l1 W)|]. intros f (g & Hg & A & B). cbn. exists f. split; [reflexivity|]. split; [eauto|]. intros _. eauto.
    - cbn. exists (q_flip s). split; [destruct s; reflexivity|]. split; [apply W|discriminate]. }
  intros s1 (f & -> & (g0 & Hg0) & Hf).
  destruct (deactivate_ok (q_bounds s) l0 l1 i (w_st _ _ _ _ W) Hi) as (b & E & WB & Me & SE). cbn [q_bounds set_q_flip]. rewrite E. cbn [bind].
  change (SUCCESSFUL_RETURN =r? SUCCESSFUL_RETURN) with true. cbn [negb].
  pose proof (w_in1 _ _ _ _ W i Hi) as Ri.
  match goal with |- wp _ ?P => set (Post := P) end.
  assert (Rem : forall R h, zlen R = n * n -> hframe (q_htype s) h -> qwf n (set_q_htype h (set_q_R R (set_q_bounds b (set_q_flip f s)))) (l0 ++ [i]) (spec_remove l1 i)).
  { intros R h LR _. apply (wf_same n (set_q_bounds b (set_q_R R (set_q_flip f s)))); [|samearr].
    eapply (wf_upd n (set_q_R R (set_q_flip f s)) l0 l1); [apply wf_set_R; [eapply wf_set_flip; [exact W|exact Hg0]|exact LR]|exact Ri| |exact WB|exact Me|exact SE].
    unfold good_status; auto. }
  assert (Drop : forall R, zlen R = n * n -> removed n s (set_q_R R (set_q_bounds b (set_q_flip f s))) l0 l1 i).
  { intros R LR. split; [exact (Rem R (q_htype s) LR (hframe_refl _))|]. exists b, R, f. split; [reflexivity|auto]. }
  assert (DropP : forall R, zlen R = n * n -> wp (Ok (SUCCESSFUL_RETURN, set_q_R R (set_q_bounds b (set_q_flip f s)))) Post).
  { intros R LR. cbn. intros _. left. now apply Drop. }
  assert (FailP : forall r R h, r <> SUCCESSFUL_RETURN -> wp (Ok (r, set_q_htype h (set_q_R R (set_q_bounds b (set_q_flip f s))))) Post).
  { intros r R h N1. cbn. intros; contradiction. }
  pose proof (w_R _ _ _ _ W) as LR0.
  assert (S0 : set_q_bounds b (set_q_flip f s) = set_q_R (q_R s) (set_q_bounds b (set_q_flip f s))) by (destruct s; reflexivity).
  cbn [q_status set_q_bounds set_q_flip]. destruct (is_qps (q_status s) QPS_PREPARINGAUXILIARYQP) eqn:NP.
  { rewrite S0. apply DropP, LR0. }
  assert (NP' : q_status s <> QPS_PREPARINGAUXILIARYQP) by (intros X; rewrite X in NP; discriminate NP).
  assert (FlipP : forall s2, flippedx n s s2 l0 l1 i -> wp (Ok (SUCCESSFUL_RETURN, s2)) Post).
  { intros s2 FL. cbn. intros _. right. auto. }
  assert (TailP : forall R, zlen R = n * n ->
     wp (if is_hst (q_htype (set_q_R R (set_q_bounds b (set_q_flip f s)))) HST_ZERO && fb
         then flipBound i (set_q_R R (set_q_bounds b (set_q_flip f s)))
         else Ok (SUCCESSFUL_RETURN, set_q_R R (set_q_bounds b (set_q_flip f s)))) Post).
  { intros R LR. destruct (is_hst _ _ && fb) eqn:Z; [|now apply DropP]. apply andb_true_iff in Z as [_ Fb].
    destruct (Hf Fb) as (g & Hg & Gb & GR).
    eapply wp_mono; [eapply (flipBound_exact n s _ l0 l1 i f g); auto; exists b, R, (q_htype s); split; [reflexivity|left; reflexivity]|].
    intros [r s2] (-> & FL & _). now apply FlipP. }
  change (plainH (set_q_bounds b (set_q_flip f s))) with (plainH s).
  destruct (upd && plainH s) eqn:PU; [|rewrite S0; apply TailP, LR0].
  apply andb_true_iff in PU as [_ PH].
  change (q_theH (set_q_bounds b (set_q_flip f s))) with (q_theH s).
  sstep. apply (w_theH n s l0 l1 W _ K PH). intros M HM.
  pose proof (w_len0_lt _ _ _ _ W i Hi) as Ln. pose proof (zlen_nonneg l0) as L0.
  assert (LA : zlen (l0 ++ [i]) = zlen l0 + 1) by (rewrite zlen_app; reflexivity).
  sstep. eapply wp_mono; [apply (m_getRow_safe n M HM i _ _ _ (l0 ++ [i])); [exact (wf_ina _ _ _ WB)| |exact Ri|rewrite LA, J by lia; lia]|].
  { intros v Hv. destruct Me as (En & _). rewrite <- (w_nV _ _ _ _ W), <- En. exact (wf_range0 _ _ _ _ WB Hv). }
  intros rhs Lrhs. rewrite J in Lrhs by lia. sstep. eapply wp_mono; [apply (m_diag_safe n M HM i Ri)|]. intros r0 _.
  assert (EnV : nV (set_q_bounds b (set_q_flip f s)) = n) by (unfold nV; cbn; destruct Me as (-> & _); apply W).
  assert (EnF : nFR (set_q_bounds b (set_q_flip f s)) = zlen l0 + 1) by (unfold nFR, st_nIna; cbn; rewrite (rep_len _ _ (wf_ina _ _ _ WB)); exact LA).
  sstep. unfold qb_backsolveR. rewrite EnV, EnF. replace (zlen l0 + 1 - 1) with (zlen l0) by lia.
  eapply wp_mono; [apply backsolveR_safe; [lia|cbn; lia|rewrite J by lia; lia|cbn; lia]|]. intros [rv r] Lr. rewrite J in Lr by lia.
  destruct (negb _). { rewrite S0. apply (FailP RET_REMOVEBOUND_FAILED (q_R s) (q_htype s)); auto; discriminate. }
  sstep. eapply wp_mono with (P := fun _ => True).
  { apply wp_for_inv with (I := fun _ => True); auto. intros j v Hj _. sstep. sstep; [lia|exact I]. }
  intros r1 _. sstep. eapply wp_mono with (P := fun R => zlen R = n * n).
  { apply wp_for_inv with (I := fun R => zlen R = n * n); auto. intros j R Hj LR. sstep. sstep; [lia|].
    apply wp_wrv; [rewrite LR; apply cm_idx; lia|]. intros; lia. }
  intros R LR. cbn beta in LR. cbn [q_opts set_q_R set_q_bounds set_q_flip]. fold fb.
  assert (Piv : wp (R <- wr R (zlen l0 + n * zlen l0) (nsqrt r1) ;;
      (if is_hst (q_htype (set_q_R R (set_q_R R (set_q_bounds b (set_q_flip f s))))) HST_ZERO && fb
         then flipBound i (set_q_R R (set_q_R R (set_q_bounds b (set_q_flip f s))))
         else Ok (SUCCESSFUL_RETURN, set_q_R R (set_q_R R (set_q_bounds b (set_q_flip f s)))))) Post).
  { sstep. apply wp_wrv; [rewrite LR; apply cm_idx; lia|]. intros R' LR'. apply (TailP R'). lia. }
  destruct fb eqn:Fb.
  - destruct (r1 >' _); [exact Piv|].
    destruct (Hf eq_refl) as (g & Hg & Gb & GR). sstep.
    eapply wp_mono; [eapply (flipBound_exact n s _ l0 l1 i f g); auto; exists b, R, HST_SEMIDEF; split; [reflexivity|right; auto]|].
    intros [r' s2] (-> & FL & HT). cbn [q_htype set_q_htype] in HT. change (negb _) with false. cbn iota.
    rewrite HT. cbn [is_hst]. apply FlipP, FL.
  - destruct (r1 >' _); [exact Piv|]. apply (FailP RET_HESSIAN_NOT_SPD R HST_SEMIDEF); try discriminate.
Qed.
End Flip.

Local Open Scope R_scope.
(** ** Submatrices and curvature *)
Definition sub (l : list Z) (Hm : Z -> Z -> R) (p q : Z) : R := Hm (zz l p) (zz l q).
(** Hm - lambda I is positive semidefinite *)
Definition strong (n : Z) (Hm : Z -> Z -> R) (lam : R) : Prop := forall x, lam * rsum 0 n (fun i => x i * x i) <= quad n Hm x.
Definition symm_on (n : Z) (Hm : Z -> Z -> R) : Prop := forall i j, (0 <= i < n)%Z -> (0 <= j < n)%Z -> Hm i j = Hm j i.

Lemma delta_refl i : delta i i = 1.
Proof. unfold delta. now rewrite Z.eqb_refl. Qed.
Lemma delta_ne i j : i <> j -> delta i j = 0.
Proof. unfold delta. intros H. destruct (Z.eqb_spec i j); [contradiction|reflexivity]. Qed.
Lemma rsum_pick lo hi k f : (lo <= k < hi)%Z -> rsum lo hi (fun i => delta k i * f i) = f k.
Proof.
  intros H. rewrite (rsum_split lo k hi) by lia. rewrite (rsum_first k) by lia. rewrite (rsum_0 lo k), (rsum_0 (k + 1) hi).
  - rewrite delta_refl. ring.
  - intros i Hi. rewrite delta_ne by lia. ring.
  - intros i Hi. rewrite delta_ne by lia. ring.
Qed.
Lemma delta_nodup l p q : NoDup l -> (0 <= p < zlen l)%Z -> (0 <= q < zlen l)%Z -> delta (zz l p) (zz l q) = delta p q.
Proof.
  intros ND Hp Hq. unfold delta. destruct (Z.eqb_spec p q) as [->|Ne]; [now rewrite Z.eqb_refl|].
  destruct (Z.eqb_spec (zz l p) (zz l q)) as [E|]; [|reflexivity]. exfalso. apply Ne. apply (NoDup_zz l); auto.
Qed.

Section Spread.
Variables (n : Z) (l : list Z) (x : Z -> R).
Hypothesis ND : NoDup l.
Hypothesis In0 : forall v, In v l -> (0 <= v < n)%Z.
(** the vector with entries x at the positions l *)
Definition spread (i : Z) : R := rsum 0 (zlen l) (fun p => delta (zz l p) i * x p).
Lemma zz_in p : (0 <= p < zlen l)%Z -> (0 <= zz l p < n)%Z.
Proof. intros H. apply In0, zn_In, H. Qed.
Lemma spread_at p : (0 <= p < zlen l)%Z -> spread (zz l p) = x p.
Proof.
  intros Hp. unfold spread. rewrite <- (rsum_pick 0 (zlen l) p x Hp). apply rsum_ext. intros q Hq. rewrite delta_nodup by auto.
  unfold delta. now rewrite Z.eqb_sym.
Qed.
Lemma spread_sum f : rsum 0 n (fun i => spread i * f i) = rsum 0 (zlen l) (fun p => x p * f (zz l p)).
Proof.
  transitivity (rsum 0 n (fun i => rsum 0 (zlen l) (fun p => delta (zz l p) i * (x p * f i)))).
  { apply rsum_ext. intros i _. unfold spread. rewrite <- rsum_scal_r. apply rsum_ext. intros; ring. }
  rewrite rsum_swap. apply rsum_ext. intros p Hp. exact (rsum_pick 0 n (zz l p) (fun i => x p * f i) (zz_in p Hp)).
Qed.
Lemma spread_sq : rsum 0 n (fun i => spread i * spread i) = rsum 0 (zlen l) (fun p => x p * x p).
Proof. rewrite spread_sum. apply rsum_ext. intros p Hp. now rewrite spread_at. Qed.
Lemma spread_quad Hm : quad n Hm spread = quad (zlen l) (sub l Hm) x.
Proof.
  unfold quad. transitivity (rsum 0 n (fun i => spread i * rsum 0 (zlen l) (fun q => x q * Hm i (zz l q)))).
  { apply rsum_ext. intros i _. rewrite <- spread_sum. rewrite <- rsum_scal. apply rsum_ext. intros; ring. }
  rewrite spread_sum. apply rsum_ext. intros p _. rewrite <- rsum_scal. apply rsum_ext. intros q _. unfold sub. ring.
Qed.
End Spread.

Lemma strong_sub n l Hm lam : NoDup l -> (forall v, In v l -> (0 <= v < n)%Z) -> strong n Hm lam -> strong (zlen l) (sub l Hm) lam.
Proof. intros ND I0 S x. rewrite <- (spread_quad n) by auto. rewrite <- (spread_sq n) by auto. apply S. Qed.
Lemma strong_lead m k A lam : (0 <= k <= m)%Z -> strong m A lam -> strong k A lam.
Proof.
  intros Hk S x. specialize (S (fun j => if (j <? k)%Z then x j else 0)). cbn beta in S.
  assert (E : forall f : Z -> R, rsum 0 m (fun j => (if (j <? k)%Z then x j else 0) * f j) = rsum 0 k (fun j => x j * f j)).
  { intros f. rewrite (rsum_split 0 k m) by lia. rewrite (rsum_0 k m).
    - rewrite Rplus_0_r. apply rsum_ext. intros j Hj. destruct (Z.ltb_spec j k); [reflexivity|lia].
    - intros j Hj. destruct (Z.ltb_spec j k); [lia|ring]. }
  rewrite E in S. assert (Q : quad m A (fun j => if (j <? k)%Z then x j else 0) = quad k A x).
  { unfold quad. transitivity (rsum 0 m (fun i => (if (i <? k)%Z then x i else 0) * rsum 0 k (fun j => x j * A i j))).
    - apply rsum_ext. intros i _. rewrite <- E. rewrite <- rsum_scal. apply rsum_ext. intros; ring.
    - rewrite E. apply rsum_ext. intros i _. rewrite <- rsum_scal. apply rsum_ext. intros; ring. }
  rewrite Q in S. eapply Rle_trans; [|exact S]. right. f_equal. apply rsum_ext. intros j Hj. destruct (Z.ltb_spec j k); [reflexivity|lia].
Qed.
Lemma strong_pd n Hm lam : 0 < lam -> strong n Hm lam -> posdef n Hm.
Proof.
  intros L S x (i & Hi & Hx). eapply Rlt_le_trans; [|apply S]. apply Rmult_lt_0_compat; [exact L|].
  assert (P : 0 <= rsum 0 n (fun k => x k * x k)) by (apply rsum_nonneg; intros; nra). destruct P as [P|P]; auto. exfalso.
  assert (x i * x i = 0) by (apply (rsum_nonneg_0 0 n (fun k => x k * x k)); auto; intros; nra). nra.
Qed.

(** r0 is the smallest curvature of A in directions whose last component is 1 *)
Definition curvature (m : Z) (A : Z -> Z -> R) (r0 : R) : Prop :=
  (exists x, x m = 1 /\ quad (m + 1) A x = r0) /\ forall x, x m = 1 -> r0 <= quad (m + 1) A x.

Lemma gram_sym m U A : gram m U A -> symm_on m A.
Proof. intros G i j Hi Hj. rewrite <- !G by auto. apply rsum_ext. intros; ring. Qed.
Lemma gram_lead m k U A : (0 <= k <= m)%Z -> upper_tri m U -> gram m U A -> gram k U A.
Proof.
  intros Hk T G i j Hi Hj. rewrite <- G by lia. rewrite (rsum_split 0 k m) by lia. rewrite (rsum_0 k m); [ring|].
  intros p Hp. rewrite (T p i) by lia. ring.
Qed.
Lemma upper_lead m k U : (k <= m)%Z -> upper_tri m U -> upper_tri k U.
Proof. intros H T i j Hi Hj. apply T; lia. Qed.

Lemma matvec_succ m U x k : (0 <= m)%Z -> matvec (m + 1) U x k = matvec m U x k + U k m * x m.
Proof. intros H. unfold matvec. rewrite rsum_last by lia. reflexivity. Qed.

(** the last pivot squared is the curvature *)
Lemma curvature_pivot m U A : (0 <= m)%Z -> upper_tri m U -> (forall i, (0 <= i < m)%Z -> U i i <> 0) -> gram m U A ->
  (forall i, (0 <= i < m)%Z -> A m i = A i m) ->
  (forall i, (0 <= i < m)%Z -> rsum 0 m (fun k => U k i * U k m) = A i m) ->
  curvature m A (A m m - rsum 0 m (fun k => U k m * U k m)).
Proof.
  intros Hm T D G S C. split; [exact (pivot_value m U A Hm T D G S C)|]. intros x X1.
  rewrite quad_succ by auto. rewrite X1. rewrite (gram_quad m U A x G).
  assert (E : rsum 0 m (fun i => x i * A i m) = rsum 0 m (fun k => matvec m U x k * U k m)).
  { transitivity (rsum 0 m (fun i => rsum 0 m (fun k => x i * (U k i * U k m)))).
    - apply rsum_ext. intros i Hi. rewrite <- C by auto. rewrite <- rsum_scal. reflexivity.
    - rewrite rsum_swap. apply rsum_ext. intros k _. unfold matvec. rewrite <- rsum_scal_r. apply rsum_ext. intros; ring. }
  rewrite E.
  assert (P : 0 <= rsum 0 m (fun k => (matvec m U x k + U k m) * (matvec m U x k + U k m))) by (apply rsum_nonneg; intros; apply Rle_0_sqr).
  rewrite (rsum_ext 0 m _ (fun k => matvec m U x k * matvec m U x k + 2 * (matvec m U x k * U k m) + U k m * U k m)) in P by (intros; ring).
  rewrite !rsum_plus, rsum_scal in P. lra.
Qed.

Section X4.
Variables eps zero infty : R.
Notation N := (RNumT eps zero infty).
Notation arr := (list R).
Hypothesis zero_nn : 0 <= zero.

Lemma factor_ext n m (a : arr) A B : (forall p q, (0 <= p < m)%Z -> (0 <= q < m)%Z -> A p q = B p q) -> factor n m a A -> factor n m a B.
Proof. intros E [G D]. split; [|exact D]. intros i j Hi Hj. rewrite <- E by auto. now apply G. Qed.

(** pivots are at least sqrt(lambda) *)
Lemma factor_pivot n m (a : arr) A lam i : 0 <= lam -> factor n m a A -> strong m A lam -> (0 <= i < m)%Z -> lam <= ce n a i i * ce n a i i.
Proof.
  intros L [G D] S Hi. pose proof (triu_upper m n a) as T.
  assert (D' : forall k, (0 <= k < m)%Z -> triu a n k k <> 0) by (intros k Hk; rewrite triu_diag; auto).
  pose proof (gram_lead m (i + 1) _ _ ltac:(lia) T G) as G1.
  destruct (pivot_value i (triu a n) A) as (x & X1 & Q); try lia.
  - apply (upper_lead m); [lia|exact T].
  - intros k Hk. apply D'. lia.
  - apply (gram_lead m); auto; lia.
  - intros k Hk. apply (gram_sym m _ _ G); lia.
  - intros k Hk. rewrite <- (G1 k i) by lia. rewrite rsum_last by lia. rewrite (T i k) by lia. ring.
  - pose proof (strong_lead m (i + 1) A lam ltac:(lia) S x) as S1. rewrite Q in S1.
    rewrite <- (G1 i i) in S1 by lia. rewrite !(rsum_last 0 i) in S1 by lia.
    rewrite triu_diag in S1. rewrite X1 in S1.
    assert (P : 0 <= rsum 0 i (fun k => x k * x k)) by (apply rsum_nonneg; intros; nra). nra.
Qed.
Lemma pivot_big (d lam : R) : zero * zero < lam -> lam <= d * d -> zero < Rabs d.
Proof. intros H1 H2. unfold Rabs. destruct (Rcase_abs d); nra. Qed.

(** one more column *)
Lemma factor_extend n m (a a' : arr) A B (r : Z -> R) : (0 <= m)%Z -> factor n m a A ->
  (forall p q, (0 <= p < m)%Z -> (0 <= q < m)%Z -> B p q = A p q) -> (forall p, (0 <= p < m)%Z -> B m p = B p m) ->
  (forall p q, (0 <= p < m)%Z -> (0 <= q < m)%Z -> ce n a' p q = ce n a p q) -> (forall p, (0 <= p < m)%Z -> ce n a' p m = r p) ->
  (forall p, (0 <= p < m)%Z -> matvec m (utrans true (triu a n)) r p = B p m) ->
  let r0 := B m m - rsum 0 m (fun k => r k * r k) in
  curvature m B r0 /\ (0 < r0 -> ce n a' m m = sqrt r0 -> factor n (m + 1) a' B).
Proof.
  intros Hm [G D] EB SB EA ER SOL r0. pose proof (triu_upper m n a) as T.
  set (U := triu a' n).
  assert (U1 : forall p q, (0 <= p < m)%Z -> (0 <= q < m)%Z -> U p q = triu a n p q).
  { intros p q Hp Hq. unfold U, triu. fold (ce n a' p q) (ce n a p q). now rewrite EA. }
  assert (U2 : forall p, (0 <= p < m)%Z -> U p m = r p).
  { intros p Hp. unfold U, triu. fold (ce n a' p m). destruct (Z.leb_spec p m); [auto|lia]. }
  assert (GB : gram m U B).
  { intros i j Hi Hj. rewrite EB by auto. rewrite <- G by auto. apply rsum_ext. intros k Hk. now rewrite !U1. }
  assert (TU : upper_tri m U) by apply triu_upper.
  assert (CU : forall i, (0 <= i < m)%Z -> rsum 0 m (fun k => U k i * U k m) = B i m).
  { intros i Hi. rewrite <- SOL by auto. unfold matvec, utrans. apply rsum_ext. intros k Hk. now rewrite U1, U2. }
  assert (R2 : rsum 0 m (fun k => r k * r k) = rsum 0 m (fun k => U k m * U k m)) by (apply rsum_ext; intros k Hk; now rewrite U2).
  split.
  - unfold r0. rewrite R2. apply curvature_pivot; auto. intros i Hi. rewrite U1 by auto. rewrite triu_diag. auto.
  - intros Pos Em. split.
    + fold U. intros i j Hi Hj. rewrite rsum_last by lia.
      assert (Z0 : forall q, (0 <= q < m)%Z -> U m q = 0) by (intros q Hq; unfold U, triu; destruct (Z.leb_spec m q); [lia|reflexivity]).
      destruct (Z.eq_dec i m) as [->|Ni], (Z.eq_dec j m) as [->|Nj].
      * unfold U at 3 4. rewrite triu_diag. rewrite Em. rewrite sqrt_sqrt by lra. unfold r0. rewrite R2. ring.
      * rewrite (Z0 j) by lia. rewrite SB by lia. rewrite <- CU by lia. rewrite Rmult_0_r, Rplus_0_r. apply rsum_ext. intros; ring.
      * rewrite (Z0 i) by lia. rewrite CU by lia. ring.
      * rewrite (Z0 i) by lia. rewrite GB by lia. ring.
    + intros i Hi. destruct (Z.eq_dec i m) as [->|Ni]; [rewrite Em; apply Rgt_not_eq, sqrt_lt_R0, Pos|rewrite EA by lia; apply D; lia].
Qed.

(** ** The invariant *)
(** The factor of the free block, in free-list order.  Hessians of type zero and
    identity keep the factor r I of the whole matrix; a zero Hessian without
    regularisation has none, and then no variable is free. *)
Definition cholesky (n : Z) (s : qpb N) (l0 : list Z) (Hm : Z -> Z -> R) : Prop :=
  if plainH s then factor n (zlen l0) (q_R s) (sub l0 Hm)
  else (l0 = [] /\ q_htype s = HST_ZERO /\ usingReg s = false) \/ exists r, r <> 0 /\ (forall p q, (0 <= p <= q)%Z -> (q < n)%Z -> ce n (q_R s) p q = r * delta p q) /\
    forall i j, (0 <= i < n)%Z -> (0 <= j < n)%Z -> Hm i j = r * r * delta i j.

Lemma cholesky_factor n s l0 l1 Hm : qwf n s l0 l1 -> cholesky n s l0 Hm -> factor n (zlen l0) (q_R s) (sub l0 Hm).
Proof.
  intros W C. unfold cholesky in C. destruct (plainH s); [exact C|].
  destruct C as [(-> & _)|(r & Nz & ER & EH)]; [split; intros i; unfold zlen; cbn; lia|].
  pose proof (w_len0 _ _ _ _ W) as Ln. assert (ND : NoDup l0) by exact (rep_NoDup _ _ (wf_ina _ _ _ (w_st _ _ _ _ W))).
  split.
  - intros i j Hi Hj. unfold sub. rewrite EH by (apply (w_in0 _ _ _ _ W), zn_In; auto). rewrite delta_nodup by auto.
    rewrite (rsum_ext 0 (zlen l0) _ (fun k => delta i k * (r * r * delta k j))).
    + rewrite rsum_pick by auto. reflexivity.
    + intros k Hk. unfold triu. fold (ce n (q_R s) k i) (ce n (q_R s) k j).
      destruct (Z.leb_spec k i).
      * rewrite (ER k i) by lia. unfold delta. rewrite (Z.eqb_sym i k). destruct (Z.eqb_spec k i) as [->|]; [|ring].
        destruct (Z.leb_spec i j); [rewrite ER by lia; unfold delta; ring|]. destruct (Z.eqb_spec i j); [lia|ring].
      * rewrite (delta_ne i k) by lia. ring.
  - intros i Hi. rewrite ER by lia. rewrite delta_refl. lra.
Qed.

(** what the factor needs of the pivots: rotations skip entries of magnitude at most ZERO *)
Lemma cholesky_pivots n s l0 l1 Hm lam : qwf n s l0 l1 -> cholesky n s l0 Hm -> strong n Hm lam -> zero * zero < lam ->
  forall i, (0 <= i < zlen l0)%Z -> zero < Rabs (ce n (q_R s) i i).
Proof.
  intros W C S L i Hi. apply (pivot_big _ lam L). apply (factor_pivot n (zlen l0) (q_R s) (sub l0 Hm)); auto.
  - nra.
  - now apply (cholesky_factor n s l0 l1).
  - apply (strong_sub n); auto; [exact (rep_NoDup _ _ (wf_ina _ _ _ (w_st _ _ _ _ W)))|exact (w_in0 _ _ _ _ W)].
Qed.

Theorem addBound_exact n (s : qpb N) l0 l1 i v Hm : qwf n s l0 l1 -> In i l0 -> is_active v = true -> noUpdate s = false ->
  q_status s <> QPS_PREPARINGAUXILIARYQP -> cholesky n s l0 Hm ->
  (forall p, (0 <= p < zlen l0)%Z -> zero < Rabs (ce n (q_R s) p p)) ->
  wp (addBound i v true s) (fun '(r, s') => r = SUCCESSFUL_RETURN /\ added n s s' l0 l1 i v /\ cholesky n s' (spec_remove l0 i) Hm).
Proof.
  intros W Hi Hv NU NP C Pv.
  assert (W1 := addBound_safe n s l0 l1 i v true W Hi Hv NU).
  cut (wp (addBound i v true s) (fun '(_, s') => cholesky n s' (spec_remove l0 i) Hm)).
  { intros H. pose proof (wp_conj _ _ _ W1 H) as K. eapply wp_mono; [exact K|]. intros [r s'] [(A & B) D]. auto. }
  clear W1. unfold addBound. rewrite NU.
  destruct (activate_ok (q_bounds s) l0 l1 i v (w_st _ _ _ _ W) Hi Hv) as (b & E & WB & Me & SE).
  destruct (is_qps (q_status s) _) eqn:Q; [destruct (q_status s); try discriminate Q; contradiction|].
  unfold cholesky in C. cbn [andb]. destruct (plainH s) eqn:P.
  - rewrite (getIndex_spec _ l0 i (w_rep0 _ _ _ _ W)) by (exists i; split; [exact Hi|lia]). cbn [bind].
    pose proof (pos_range l0 i Hi). pose proof (w_len0 _ _ _ _ W).
    rewrite (w_nv _ _ _ _ W), (w_nfr _ _ _ _ W). apply wp_bind. apply wp_bind.
    eapply wp_mono; [apply (chol_delete_ok eps zero infty zero_nn n (zlen l0) _ _ (sub l0 Hm)); auto; [apply W|intros; apply Pv; lia]|].
    intros R (LR & F). cbn [wp q_bounds set_q_R]. rewrite E. cbn [wp bind]. unfold cholesky.
    change (plainH (set_q_bounds b (set_q_R R s))) with (plainH s). rewrite P. cbn [q_R set_q_R set_q_bounds].
    rewrite spec_remove_len by exact Hi. eapply factor_ext; [|exact F]. intros p q Hp Hq. unfold sub.
    rewrite !spec_remove_zz by (auto; lia). destruct (_ <? _)%Z, (_ <? _)%Z; reflexivity.
  - cbn [bind]. rewrite E. cbn [wp bind]. unfold cholesky. change (plainH (set_q_bounds b s)) with (plainH s). rewrite P.
    destruct C as [(-> & _)|C]; [contradiction Hi|]. right. exact C.
Qed.

Section Remove.
Variable junk : Z -> arr.
Hypothesis J : junk_ok (N := N) junk.

(** The smallest curvature r0 of the Hessian along directions that move bound
    i by one and the fixed variables not at all decides what happens. *)
Theorem removeBound_exact n (s : qpb N) l0 l1 i Hm : qwf n s l0 l1 -> hk s -> In i l1 -> noUpdate s = false ->
  q_status s <> QPS_PREPARINGAUXILIARYQP -> hess eps zero infty n s Hm -> symm_on n Hm -> cholesky n s l0 Hm -> 0 <= o_epsFlipping (q_opts s) ->
  wp (removeBound (N := N) junk i true s) (fun '(r, s') =>
    if plainH s then
      r = RET_REMOVEBOUND_FAILED /\ 0 < zero \/
      exists r0, curvature (zlen l0) (sub (l0 ++ [i]) Hm) r0 /\
        if Rltb (if o_enableFlippingBounds (q_opts s) then o_epsFlipping (q_opts s) else zero) r0
        then r = SUCCESSFUL_RETURN /\ removed n s s' l0 l1 i /\ cholesky n s' (l0 ++ [i]) Hm
        else if o_enableFlippingBounds (q_opts s) then r = SUCCESSFUL_RETURN /\ flippedx n s s' l0 l1 i /\ q_htype s' = HST_SEMIDEF
        else r = RET_HESSIAN_NOT_SPD
    else
      r = SUCCESSFUL_RETURN /\
      if is_hst (q_htype s) HST_ZERO && o_enableFlippingBounds (q_opts s) then flippedx n s s' l0 l1 i /\ q_htype s' = HST_ZERO
      else removed n s s' l0 l1 i /\ ((q_htype s = HST_ZERO -> usingReg s = true) -> cholesky n s' (l0 ++ [i]) Hm)).
Proof.
  intros W K Hi NU NP HE SY C EF. unfold removeBound. rewrite NU. cbv zeta. rewrite (w_nv _ _ _ _ W), (w_nfr _ _ _ _ W).
  set (fb := o_enableFlippingBounds (q_opts s)).
  set (Post := fun '(r, s') => if plainH s then _ else _).
  apply wp_bind. eapply wp_mono with (P := fun s1 => exists f, s1 = set_q_flip f s /\ (exists g, holds n 0 f g) /\
    (fb = true -> exists g, holds n 0 f g /\ sn_b g = Some (q_bounds s) /\ sn_R g = Some (q_R s))).
  { destruct fb.
    - apply wp_bind. eapply wp_mono; [apply (snapshot (N := N) junk J n s l0 l1 W)|]. intros f (g & Hg & A & B). cbn. exists f. split; [reflexivity|]. split; [eauto|]. intros _. eauto.
    - cbn. exists (q_flip s). split; [destruct s; reflexivity|]. split; [apply W|discriminate]. }
  intros s1 (f & -> & (g0 & Hg0) & Hf).
  destruct (deactivate_ok (q_bounds s) l0 l1 i (w_st _ _ _ _ W) Hi) as (b & E & WB & Me & SE). cbn [q_bounds set_q_flip]. rewrite E. cbn [bind].
  change (SUCCESSFUL_RETURN =r? SUCCESSFUL_RETURN) with true. cbn [negb].
  pose proof (w_in1 _ _ _ _ W i Hi) as Ri.
  assert (Drop : forall R : arr, zlen R = (n * n)%Z -> removed n s (set_q_R (N := N) R (set_q_bounds b (set_q_flip f s))) l0 l1 i).
  { intros R LR. split.
    - apply (wf_same n (set_q_bounds b (set_q_R (N := N) R (set_q_flip f s)))); [|samearr].
      eapply (wf_upd n (set_q_R (N := N) R (set_q_flip f s)) l0 l1); [apply wf_set_R; [eapply wf_set_flip; [exact W|exact Hg0]|exact LR]|exact Ri| |exact WB|exact Me|exact SE].
      unfold good_status; auto.
    - exists b, R, f. split; [reflexivity|auto]. }
  pose proof (w_R _ _ _ _ W) as LR0.
  assert (S0 : set_q_bounds b (set_q_flip f s) = set_q_R (q_R s) (set_q_bounds b (set_q_flip f s))) by (destruct s; reflexivity).
  cbn [q_status set_q_bounds set_q_flip]. destruct (is_qps (q_status s) QPS_PREPARINGAUXILIARYQP) eqn:NP'.
  { exfalso. apply NP. destruct (q_status s); try discriminate NP'; reflexivity. }
  change (plainH (set_q_bounds b (set_q_flip f s))) with (plainH s). cbn [andb].
  pose proof (cholesky_factor n s l0 l1 Hm W C) as F0.
  destruct (plainH s) eqn:PH.
  2:{ (* zero or identity *)
    cbn [q_htype set_q_bounds set_q_flip]. destruct (is_hst (q_htype s) HST_ZERO && fb) eqn:Zf.
    - apply andb_true_iff in Zf as [Zt Fb]. destruct (Hf Fb) as (g & Hg & Gb & GR).
      eapply wp_mono; [eapply (flipBound_exact n s _ l0 l1 i f g); auto; exists b, (q_R s), (q_htype s); split; [destruct s; reflexivity|left; auto]|].
      intros [r s2] (-> & FL & HT). subst Post. cbv beta iota. split; [reflexivity|]. split; [exact FL|].
      rewrite HT. cbn [q_htype set_q_bounds set_q_flip]. destruct (q_htype s); try discriminate Zt; reflexivity.
    - subst Post. cbn [wp]. split; [reflexivity|]. split; [rewrite S0; now apply Drop|]. intros RG. unfold cholesky in *.
      change (plainH (set_q_bounds b (set_q_flip f s))) with (plainH s). rewrite PH in *. right.
      destruct C as [(_ & HT & NR)|C]; [rewrite RG in NR by exact HT; discriminate NR|exact C]. }
  destruct (hess_plain eps zero infty n s Hm HE PH) as (M & EM & EtM & MO).
  change (q_theH (set_q_bounds b (set_q_flip f s))) with (q_theH s). rewrite EtM. cbn [bind].
  pose proof (w_len0_lt _ _ _ _ W i Hi) as Ln. pose proof (zlen_nonneg l0) as L0.
  assert (LA : zlen (l0 ++ [i]) = (zlen l0 + 1)%Z) by (rewrite zlen_app; reflexivity).
  assert (IA : forall v, In v (l0 ++ [i]) -> (0 <= v < n)%Z).
  { intros v Hv. destruct Me as (En & _). rewrite <- (w_nV _ _ _ _ W), <- En. exact (wf_range0 _ _ _ _ WB Hv). }
  destruct (mo_row _ _ _ _ _ _ MO i _ _ (junk (zlen l0 + 1)%Z) (wf_ina _ _ _ WB) IA Ri) as (rw & Erw & Lrw & Vrw).
  { rewrite LA, J by lia. lia. }
  rewrite J in Lrw by lia. cbn [q_bounds set_q_bounds set_q_flip]. rewrite Erw. cbn [bind].
  rewrite (mo_diag _ _ _ _ _ _ MO i Ri). cbn [bind].
  assert (EnV : nV (set_q_bounds b (set_q_flip f s)) = n) by (unfold nV; cbn; destruct Me as (-> & _); apply W).
  assert (EnF : nFR (set_q_bounds b (set_q_flip f s)) = (zlen l0 + 1)%Z) by (unfold nFR, st_nIna; cbn; rewrite (rep_len _ _ (wf_ina _ _ _ WB)); exact LA).
  unfold qb_backsolveR. rewrite EnV, EnF. replace (zlen l0 + 1 - 1)%Z with (zlen l0) by lia. cbn [q_R set_q_bounds set_q_flip].
  destruct (backsolveR_gen eps zero infty n (zlen l0) (q_R s) (Some rw) true (junk (zlen l0))) as (ret & r & Er & Lr & _ & Sr).
  { right. intros p Hp. apply (proj2 F0 p Hp). }
  { lia. } { eapply Z.le_trans; [|apply Z.eq_le_incl; symmetry; exact LR0]. nia. } { apply Z.eq_le_incl. symmetry. apply J. lia. } { cbn [rhs_ok]. etransitivity; [|apply Z.eq_le_incl; symmetry; exact Lrw]. lia. }
  rewrite J in Lr by lia. rewrite Er. cbn [bind].
  destruct Sr as [(-> & Sr)|(-> & p & Hp & Bad)].
  2:{ change (negb (RET_DIV_BY_ZERO =r? SUCCESSFUL_RETURN)) with true. cbn iota. subst Post. cbn [wp]. left. split; [reflexivity|].
      destruct zero_nn as [|Z0]; [assumption|]. exfalso. cbv zeta in Bad. revert Bad. apply Rle_not_lt. eapply Rle_trans; [|apply Rabs_pos]. match goal with |- zero * ?v <= 0 => generalize v end. intros v. rewrite <- Z0. lra. }
  change (negb (SUCCESSFUL_RETURN =r? SUCCESSFUL_RETURN)) with false. cbn iota.
  cbn [rhs] in Sr.
  set (B := sub (l0 ++ [i]) Hm).
  assert (Z1 : forall q, (0 <= q < zlen l0)%Z -> zz (l0 ++ [i]) q = zz l0 q) by (intros q Hq; apply zn_app1; exact Hq).
  assert (Z2 : zz (l0 ++ [i]) (zlen l0) = i) by (rewrite zn_app2 by lia; now rewrite Z.sub_diag).
  assert (SOL : forall p, (0 <= p < zlen l0)%Z -> matvec (zlen l0) (utrans true (triu (q_R s) n)) (zn 0 r) p = B p (zlen l0)).
  { intros p Hp. rewrite Sr by exact Hp. rewrite Vrw by lia. unfold B, sub. rewrite Z2. apply SY; [exact Ri|]. apply IA, zn_In. lia. }
  (* r0 *)
  apply wp_bind. eapply wp_mono with (P := fun v => v = B (zlen l0) (zlen l0) - rsum 0 (zlen l0) (fun k => zn 0 r k * zn 0 r k)).
  { apply wp_for_up with (I := fun k v => v = Hm i i - rsum 0 k (fun k => zn 0 r k * zn 0 r k)); [lia|rewrite rsum_empty by lia; lra| |].
    - intros k v Hk ->. rewrite (rd_ok 0) by (rcar; lia). cbn [bind]. apply wp_ok. rewrite rsum_last by lia. rnum. lra.
    - intros v ->. unfold B, sub. now rewrite Z2. }
  intros r0 Er0. apply wp_bind.
  eapply wp_mono with (P := fun a : arr => zlen a = (n * n)%Z /\
    (forall p q, (0 <= p < n)%Z -> (0 <= q < zlen l0)%Z -> ce n a p q = ce n (q_R s) p q) /\ forall p, (0 <= p < zlen l0)%Z -> ce n a p (zlen l0) = zn 0 r p).
  { apply wp_for_up with (I := fun k (a : arr) => zlen a = (n * n)%Z /\
      (forall p q, (0 <= p < n)%Z -> (0 <= q < zlen l0)%Z -> ce n a p q = ce n (q_R s) p q) /\ forall p, (0 <= p < k)%Z -> ce n a p (zlen l0) = zn 0 r p); [lia| | |].
    - split; [exact LR0|]. split; [auto|]. intros; lia.
    - intros k a Hk (La & A1 & A2). rewrite (rd_ok 0) by (rcar; lia). cbn [bind].
      pose proof (ce_in n a (zlen l0 + 1) k (zlen l0) ltac:(lia) La ltac:(lia) ltac:(lia)) as IN.
      rewrite wr_ok by exact IN. apply wp_ok. split; [now rewrite zlen_zupd|]. split.
      + intros p q Hp Hq. rewrite ce_upd by lia. destruct (Z.eqb_spec q (zlen l0)); [lia|]. rewrite andb_false_r. auto.
      + intros p Hp. rewrite ce_upd by lia. rewrite Z.eqb_refl, andb_true_r. destruct (Z.eqb_spec p k) as [->|]; [reflexivity|]. apply A2. lia.
    - auto. }
  intros a (La & A1 & A2). cbn [q_opts set_q_R set_q_bounds set_q_flip].
  pose proof (ce_in n a (zlen l0 + 1) (zlen l0) (zlen l0) ltac:(lia) La ltac:(lia) ltac:(lia)) as IN.
  set (a' := zupd a (zlen l0 + n * zlen l0) (sqrt r0)).
  destruct (factor_extend n (zlen l0) (q_R s) a' (sub l0 Hm) B (zn 0 r)) as (CV & FX); auto.
  { intros p q Hp Hq. unfold B, sub. now rewrite !Z1. }
  { intros p Hp. unfold B, sub. apply SY; apply IA, zn_In; lia. }
  { intros p q Hp Hq. unfold a'. rewrite ce_upd by lia. destruct (Z.eqb_spec q (zlen l0)); [lia|]. rewrite andb_false_r. apply A1; lia. }
  { intros p Hp. unfold a'. rewrite ce_upd by lia. destruct (Z.eqb_spec p (zlen l0)); [lia|]. cbn [andb]. apply A2; lia. }
  cbv zeta in CV, FX. rewrite <- Er0 in CV, FX.
  assert (FX' : 0 < r0 -> factor n (zlen l0 + 1) a' B).
  { intros P0. apply FX; [exact P0|]. unfold a'. rewrite ce_upd by lia. now rewrite Z.eqb_refl. }
  assert (NZt : is_hst (q_htype s) HST_ZERO = false) by (unfold plainH in PH; destruct (q_htype s); try discriminate PH; reflexivity).
  assert (Piv : forall e, 0 <= e -> e = (if fb then o_epsFlipping (q_opts s) else zero) -> e < r0 ->
    wp (R <- wr (a : list N) (zlen l0 + n * zlen l0) (@nsqrt N r0) ;;
      (if is_hst (q_htype (set_q_R (N := N) R (set_q_R (N := N) a (set_q_bounds b (set_q_flip f s))))) HST_ZERO && fb
         then flipBound i (set_q_R (N := N) R (set_q_R (N := N) a (set_q_bounds b (set_q_flip f s))))
         else Ok (SUCCESSFUL_RETURN, set_q_R (N := N) R (set_q_R (N := N) a (set_q_bounds b (set_q_flip f s)))))) Post).
  { intros e He Ee Lt. change (@nsqrt N r0) with (sqrt r0). rewrite wr_ok by exact IN. cbn [bind]. fold a'. cbn [q_htype set_q_R set_q_bounds set_q_flip].
    rewrite NZt. cbn [andb wp]. subst Post. cbv beta iota. right. exists r0. split; [exact CV|]. rewrite <- Ee.
    destruct (Rltb_spec e r0) as [_|]; [|lra]. split; [reflexivity|]. split.
    - apply (Drop a'). unfold a'. now rewrite zlen_zupd.
    - unfold cholesky. change (plainH _) with (plainH s). rewrite PH. rewrite LA. apply FX'. lra. }
  destruct fb eqn:Fb.
  - rnum. destruct (Rltb_spec (o_epsFlipping (q_opts s)) r0) as [Lt|Ge].
    + apply (Piv (o_epsFlipping (q_opts s))); auto.
    + destruct (Hf eq_refl) as (g & Hg & Gb & GR). apply wp_bind.
      eapply wp_mono; [eapply (flipBound_exact n s _ l0 l1 i f g); auto; exists b, a, HST_SEMIDEF; split; [reflexivity|right; split; [|reflexivity]]|].
      { unfold plainH in PH. destruct (q_htype s); try discriminate PH; reflexivity. }
      intros [r' s2] (-> & FL & HT). cbn [q_htype set_q_htype] in HT. change (negb _) with false. cbn iota.
      rewrite HT. cbn [is_hst andb]. subst Post. cbn [wp]. right. exists r0. split; [exact CV|].
      destruct (Rltb_spec (o_epsFlipping (q_opts s)) r0) as [|_]; [lra|]. auto.
  - rnum. destruct (Rltb_spec zero r0) as [Lt|Ge].
    + apply (Piv zero); auto.
    + subst Post. cbn [wp]. right. exists r0. split; [exact CV|]. destruct (Rltb_spec zero r0) as [|_]; [lra|]. reflexivity.
Qed.
End Remove.
End X4.
