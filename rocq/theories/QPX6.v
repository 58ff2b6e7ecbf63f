(** Adding a bound keeps both factorisations exact. *)
From Coq Require Import Permutation.
From Verif Require Import Base Types Num Options Indexlist IndexlistProofs Loops RSum LinSpec SafeLib SubjectTo SubjectToProofs SubjectToProofs2
  Flipper PropFlipper Matrices MatLib MatSafe LinAlg PropLinAlg QProblemB QPBSafe QPBX1 QPBX2 QPBX3 QProblem QPX1 QPX2 QPX3 QPX4 QPX5.
Local Open Scope R_scope.

(** the order of the free variables does not matter *)
Lemma comb_perm l l' a F q : Permutation l l' -> comb l a F q = comb l' a F q.
Proof. intros P. unfold comb. now apply lsum_perm. Qed.
Lemma zhz_perm l l' M F a b : Permutation l l' -> zhz l M F a b = zhz l' M F a b.
Proof. intros P. unfold zhz. rewrite (lsum_perm l l' _ P). apply lsum_ext. intros u Hu. now apply lsum_perm. Qed.
Lemma orth_perm l l' m F : Permutation l l' -> orth l m F -> orth l' m F.
Proof.
  intros P (A & B). split.
  - intros p q Hp Hq. rewrite <- A by lia. apply lsum_perm. now symmetry.
  - intros u v Hu Hv. apply B; eapply Permutation_in; try eassumption; now symmetry.
Qed.
Lemma perm_zlen (l l' : list Z) : Permutation l l' -> zlen l = zlen l'.
Proof. intros P. unfold zlen. now rewrite (Permutation_length P). Qed.
Lemma tqf_perm n sT l l' k Am (Q T : list R) : Permutation l l' -> tqf n sT l k Am Q T -> tqf n sT l' k Am Q T.
Proof.
  intros P (A & B & C & D). unfold tqf. rewrite <- (perm_zlen l l' P). split; [exact A|]. split; [now apply (orth_perm l)|]. split; [|exact D].
  intros i p Hi Hp. rewrite <- (comb_perm l l') by exact P. auto.
Qed.
Lemma rinv_perm n nz l l' Hm (Q Ra : list R) : Permutation l l' -> rinv n nz l Hm Q Ra -> rinv n nz l' Hm Q Ra.
Proof.
  intros P ((G & D) & S). split; [|exact S]. split; [|exact D]. intros a b Ha Hb. rewrite <- (zhz_perm l l') by exact P. now apply G.
Qed.
Lemma spec_remove_last l v : ~ In v l -> spec_remove (l ++ [v]) v = l.
Proof.
  induction l as [|h t IH]; cbn [app spec_remove]; intros NI.
  - now rewrite Z.eqb_refl.
  - destruct (Z.eqb_spec h v) as [->|]; [exfalso; apply NI; now left|]. rewrite IH; [reflexivity|]. intros H. apply NI. now right.
Qed.

Section X6.
Variables eps zero infty : R.
Notation N := (RNumT eps zero infty).
Notation arr := (list R).
Hypothesis zero_0 : zero = 0.
Variable junk : Z -> arr.
Hypothesis J : junk_ok (N := N) junk.
Notation pwf := (pwf eps zero infty).

Lemma rotT_ok sT lo nac c sn p (T tmp : arr) : (0 <= lo <= nac)%Z -> (nac <= sT)%Z -> (0 <= p < sT)%Z -> zlen T = (sT * sT)%Z -> (nac <= zlen tmp)%Z ->
  wp (rotT_out (N := N) sT lo nac c sn p T tmp) (fun '(T', tmp') => zlen T' = zlen T /\ zlen tmp' = zlen tmp /\
    (forall i j, (0 <= i < sT)%Z -> (0 <= j < sT)%Z ->
       te sT T' i j = if ((lo <=? i) && (i <? nac) && (j =? p))%Z then - sn * te sT T i p + c * zn 0 tmp i else te sT T i j) /\
    (forall i, (0 <= i)%Z -> zn 0 tmp' i = if ((lo <=? i) && (i <? nac))%Z then c * te sT T i p + sn * zn 0 tmp i else zn 0 tmp i)).
Proof.
  intros Hlo Hn Hp LT Lt. unfold rotT_out.
  apply wp_for_up with (I := fun k '(T', tmp') => zlen T' = zlen T /\ zlen tmp' = zlen tmp /\
    (forall i j, (0 <= i < sT)%Z -> (0 <= j < sT)%Z ->
       te sT T' i j = if ((lo <=? i) && (i <? k) && (j =? p))%Z then - sn * te sT T i p + c * zn 0 tmp i else te sT T i j) /\
    (forall i, (0 <= i)%Z -> zn 0 tmp' i = if ((lo <=? i) && (i <? k))%Z then c * te sT T i p + sn * zn 0 tmp i else zn 0 tmp i)); [lia| | |].
  - split; [reflexivity|]. split; [reflexivity|]. split.
    + intros i j Hi Hj. destruct (Z.leb_spec lo i), (Z.ltb_spec i lo); cbn [andb]; try lia; reflexivity.
    + intros i Hi. destruct (Z.leb_spec lo i), (Z.ltb_spec i lo); cbn [andb]; try lia; reflexivity.
  - intros k [T' tmp'] Hk (L1 & L2 & V1 & V2).
    assert (IT : forall j, (0 <= j < sT)%Z -> (0 <= k * sT + j < zlen T')%Z) by (intros; apply te_in; try lia; congruence).
    rcar. rewrite (rd_ok 0) by (apply IT; lia). cbn [bind]. rewrite (rd_ok 0) by lia. cbn [bind]. unfold applyGivens. rnum.
    rewrite wr_ok by lia. cbn [bind]. rewrite wr_ok by (apply IT; lia). cbn [bind]. apply wp_ok. rewrite !zlen_zupd. split; [exact L1|]. split; [exact L2|].
    assert (X : zn 0 T' (k * sT + p) = te sT T k p).
    { change (te sT T' k p = te sT T k p). rewrite V1 by lia. destruct (Z.ltb_spec k k); [lia|]. now rewrite andb_false_r. }
    assert (Y : zn 0 tmp' k = zn 0 tmp k). { rewrite V2 by lia. destruct (Z.ltb_spec k k); [lia|]. now rewrite andb_false_r. }
    rewrite X, Y. split.
    + intros i j Hi Hj. rewrite te_upd by (try lia; apply IT; lia). rewrite V1 by lia.
      destruct (Z.eqb_spec i k) as [->|], (Z.eqb_spec j p) as [->|], (Z.leb_spec lo k), (Z.ltb_spec k (k + 1)); cbn [andb]; rewrite ?andb_false_r, ?andb_true_r; try lia; try reflexivity.
      destruct (Z.ltb_spec i k), (Z.ltb_spec i (k + 1)); try lia; reflexivity.
    + intros i Hi. rewrite zn_zupd by lia. rewrite V2 by lia. destruct (Z.eqb_spec i k) as [->|].
      * destruct (Z.leb_spec lo k), (Z.ltb_spec k (k + 1)); try lia; reflexivity.
      * destruct (Z.ltb_spec i k), (Z.ltb_spec i (k + 1)); try lia; reflexivity.
  - intros [T' tmp'] H. exact H.
Qed.

(** after the rotations of the columns below j *)
Record abinv (n sT : Z) (l k : list Z) (nfr nac nz : Z) (Am : Z -> Z -> R) (number : Z) (w0 Q1 T0 : arr) (j : Z) (w Q T tmp : arr) : Prop := {
  ab_w : zlen w = zlen w0;
  ab_Q : zlen Q = zlen Q1;
  ab_T : zlen T = zlen T0;
  ab_t : zlen tmp = nac;
  ab_orth : orth l nfr (ce n Q);
  ab_cols : forall v q, In v l -> (0 <= q < nz - 1)%Z -> ce n Q v q = ce n Q1 v q;
  ab_wq : forall q, (0 <= q < nfr)%Z -> zn 0 w q = ce n Q number q;
  ab_w0 : forall q, (0 <= q < j)%Z -> zn 0 w q = 0;
  ab_wj : zn 0 w j <> 0;
  ab_A : forall i p, (0 <= i < nac)%Z -> (0 <= p < nfr)%Z -> comb l (Am (zn 0%Z k i)) (ce n Q) p =
     if (p <? j)%Z then (if (nfr - 2 <=? i + p)%Z then te sT T i (sT - nfr + p + 1) else 0)
     else if (p =? j)%Z then zn 0 tmp i
     else (if (nfr - 1 <=? i + p)%Z then te sT T i (sT - nfr + p) else 0);
  ab_tmp : forall i, (0 <= i < nac)%Z -> (i < nfr - 1 - j)%Z -> zn 0 tmp i = 0;
  ab_diag : forall i, (0 <= i < nac)%Z -> te sT T i (sT - 1 - i) <> 0
}.

Lemma abstep n FR l k nfr nac nz sT Am number (w0 Q1 T0 : arr) j (w Q T tmp : arr) : zlen Q1 = (n * n)%Z -> NoDup l -> (forall v, In v l -> (0 <= v < n)%Z) ->
  nfr = zlen l -> (nfr <= n)%Z -> (nac <= sT)%Z -> (nfr - nac = nz)%Z -> (0 <= nac)%Z -> (forall k, (0 <= k < nfr)%Z -> rd FR k = Ok (zn 0%Z l k)) -> (0 < nz)%Z -> zlen w0 = nfr -> In number l -> zlen T0 = (sT * sT)%Z ->
  (nz - 1 <= j < nfr - 1)%Z -> abinv n sT l k nfr nac nz Am number w0 Q1 T0 j w Q T tmp ->
  wp ('(w, c, sn) <- pivot (N := N) j w ;;
      Q <- rotQ (N := N) n FR nfr c sn j Q ;;
      '(T, tmp) <- rotT_out (N := N) sT (nfr - 2 - j) nac c sn (1 + (sT - nac) - nz + j) T tmp ;;
      Ok (w, Q, T, tmp)) (fun '(w, Q, T, tmp) => abinv n sT l k nfr nac nz Am number w0 Q1 T0 (j + 1) w Q T tmp).
Proof.
  intros LQ ND RG EL Ln SZ EZ N0 RD Hz Lw Hin LT Hj I. destruct I. assert (ZN : 0 <= zero) by lra.
  apply wp_bind. eapply wp_mono; [apply (pivot_ok eps zero infty ZN j w); lia|]. intros [[w2 c] sn] (L2 & CS & Vw & Z0 & SN). cbv beta iota. specialize (Z0 zero_0). specialize (SN zero_0 ab_wj0).
  apply wp_bind. eapply wp_mono; [apply (rotQ_ok eps zero infty n FR l nfr c sn j Q); auto; try lia; exact (eq_trans ab_Q0 LQ)|]. intros Q2 (LQ2 & VQ & _). cbv beta.
  replace (1 + (sT - nac) - nz + j)%Z with (sT - nfr + j + 1)%Z by lia.
  apply wp_bind. eapply wp_mono; [apply rotT_ok; try lia; exact (eq_trans ab_T0 LT)|]. intros [T2 tmp2] (LT2 & Lt2 & VT & Vt). cbv beta iota. apply wp_ok.
  assert (CB : forall b q, (0 <= q < n)%Z -> comb l b (ce n Q2) q = rot c sn j (comb l b (ce n Q)) q).
  { intros b q Hq. rewrite <- comb_rot. apply comb_ext. intros v Hv. apply VQ; auto. }
  constructor.
  - exact (eq_trans L2 ab_w1).
  - exact (eq_trans LQ2 ab_Q0).
  - exact (eq_trans LT2 ab_T0).
  - exact (eq_trans Lt2 ab_t0).
  - apply (orth_ext l nfr (fun v => rot c sn j (ce n Q v))); [intros v q Hv Hq; apply VQ; auto; lia|]. apply orth_rot; auto; lia.
  - intros v q Hv Hq. rewrite VQ by (auto; lia). rewrite rot_ne by lia. auto.
  - intros q Hq. rewrite Vw, VQ by (auto; lia). apply rot_ext; apply ab_wq0; lia.
  - intros q Hq. destruct (Z.eq_dec q j) as [->|]; [exact Z0|]. rewrite Vw by lia. rewrite rot_ne by lia. apply ab_w2; lia.
  - intros E. replace (j + 1)%Z with (1 + j)%Z in E by lia. rewrite Vw, rot_hi in E by lia. rewrite Vw, rot_lo in Z0 by lia. apply ab_wj0.
    replace (zn 0 w j) with ((c * c + sn * sn) * zn 0 w j) by (rewrite CS; ring).
    replace ((c * c + sn * sn) * zn 0 w j) with (sn * (c * zn 0 w (1 + j)%Z + sn * zn 0 w j) + c * (- sn * zn 0 w (1 + j)%Z + c * zn 0 w j)) by ring. rewrite E, Z0. ring.
  - intros i p Hi Hp. rewrite CB by lia. unfold rot. rewrite !ab_A0 by lia.
    destruct (Z.ltb_spec (1 + j) j); [lia|]. destruct (Z.eqb_spec (1 + j) j); [lia|]. destruct (Z.ltb_spec j j); [lia|]. rewrite Z.eqb_refl.
    destruct (Z.eqb_spec p (1 + j)) as [->|N1]; [|destruct (Z.eqb_spec p j) as [->|N2]].
    + destruct (Z.ltb_spec (1 + j) (j + 1)); [lia|]. destruct (Z.eqb_spec (1 + j) (j + 1)); [|lia]. rewrite Vt by lia. replace (sT - nfr + (1 + j))%Z with (sT - nfr + j + 1)%Z by lia.
      destruct (Z.leb_spec (nfr - 2 - j) i), (Z.ltb_spec i nac), (Z.leb_spec (nfr - 1) (i + (1 + j))); try lia; cbn [andb]; [reflexivity|]. rewrite ab_tmp0 by lia. ring.
    + destruct (Z.ltb_spec j (j + 1)); [|lia]. rewrite VT by lia. rewrite Z.eqb_refl, andb_true_r. replace (sT - nfr + (1 + j))%Z with (sT - nfr + j + 1)%Z by lia.
      destruct (Z.leb_spec (nfr - 2 - j) i), (Z.ltb_spec i nac), (Z.leb_spec (nfr - 1) (i + (1 + j))), (Z.leb_spec (nfr - 2) (i + j)); try lia; cbn [andb]; [reflexivity|]. rewrite ab_tmp0 by lia. ring.
    + destruct (Z.eqb_spec p (j + 1)); [lia|]. destruct (Z.ltb_spec p j), (Z.ltb_spec p (j + 1)); try lia.
      * destruct (Z.leb_spec (nfr - 2) (i + p)); [|reflexivity]. rewrite VT by lia. destruct (Z.eqb_spec (sT - nfr + p + 1) (sT - nfr + j + 1)); [lia|]. now rewrite andb_false_r.
      * destruct (Z.leb_spec (nfr - 1) (i + p)); [|reflexivity]. rewrite VT by lia. destruct (Z.eqb_spec (sT - nfr + p) (sT - nfr + j + 1)); [lia|]. now rewrite andb_false_r.
  - intros i Hi Hij. rewrite Vt by lia. destruct (Z.leb_spec (nfr - 2 - j) i); [lia|]. cbn [andb]. apply ab_tmp0; lia.
  - intros i Hi. rewrite VT by lia. destruct ((nfr - 2 - j <=? i) && (i <? nac) && (sT - 1 - i =? sT - nfr + j + 1))%Z eqn:E; [|apply ab_diag0; lia].
    apply andb_true_iff in E as (E1 & E2). apply Z.eqb_eq in E2. rewrite ab_tmp0 by lia. rewrite <- E2. specialize (ab_diag0 i Hi). intros Z1. apply ab_diag0.
    assert (Z2 : sn * te sT T i (sT - 1 - i) = 0) by lra. apply Rmult_integral in Z2 as [Z2|Z2]; [contradiction|exact Z2].
Qed.
(** once the last free variable is aligned with the others only it is left in its row and its column *)
Lemma orth_last nfr (lp : list Z) number F : NoDup (lp ++ [number]) -> (0 < nfr)%Z -> orth (lp ++ [number]) nfr F -> (forall q, (0 <= q < nfr - 1)%Z -> F number q = 0) ->
  orth lp (nfr - 1) F /\ (forall v, In v lp -> F v (nfr - 1)%Z = 0).
Proof.
  intros ND Hn (A & B) Z0. assert (IN : forall v, In v lp -> In v (lp ++ [number])) by (intros; apply in_or_app; auto).
  assert (I1 : In number (lp ++ [number])) by (apply in_or_app; right; now left).
  assert (NN : F number (nfr - 1)%Z * F number (nfr - 1)%Z = 1).
  { specialize (B number number I1 I1). replace nfr with (nfr - 1 + 1)%Z in B by lia. rewrite rsum_last, rsum_0 in B by (try lia; intros; rewrite Z0 by lia; ring).
    unfold delta in B. rewrite Z.eqb_refl in B. lra. }
  assert (VZ : forall v, In v lp -> F v (nfr - 1)%Z = 0).
  { assert (S0 : lsum lp (fun v => F v (nfr - 1)%Z * F v (nfr - 1)%Z) = 0).
    { specialize (A (nfr - 1)%Z (nfr - 1)%Z ltac:(lia) ltac:(lia)). rewrite lsum_app in A. cbn [lsum] in A. unfold delta in A. rewrite Z.eqb_refl in A. lra. }
    intros v Hv. assert (X := lsum_nonneg_0 lp (fun v => F v (nfr - 1)%Z * F v (nfr - 1)%Z) (fun x _ => Rle_0_sqr (F x (nfr - 1)%Z)) S0 v Hv). cbv beta in X. now apply Rmult_integral in X as [X|X]. }
  split; [|exact VZ]. split.
  - intros p q Hp Hq. rewrite <- A by lia. rewrite lsum_app. cbn [lsum]. rewrite (Z0 p) by lia. ring.
  - intros u v Hu Hv. rewrite <- (B u v) by auto. replace nfr with (nfr - 1 + 1)%Z at 2 by lia. rewrite rsum_last by lia. rewrite (VZ u) by auto. ring.
Qed.
Lemma addBound_update_ok n m Am Hm (s : qp N) l0 l1 k0 k1 number v updC :
  pwf n m Am s l0 l1 k0 k1 -> In number l0 -> is_active v = true -> tqf n (p_sizeT s) l0 k1 Am (p_Q s) (p_T s) ->
  (exists p, (0 <= p < zlen l0 - zlen k1)%Z /\ ce n (p_Q s) number p <> 0) ->
  (updC && plainH (p_b s) = true -> rinv n (zlen l0 - zlen k1) l0 Hm (p_Q s) (q_R (p_b s))) ->
  wp (addBound_update (N := N) junk number v updC s) (fun '(r, s') => r = SUCCESSFUL_RETURN /\
    exists lp b T Q Ra, s' = up_b (set_q_bounds b) (set_p_T T (set_p_Q Q (up_b (set_q_R Ra) s))) /\ same_meta (p_bounds s) b /\ st_status b = zupd (st_status (p_bounds s)) number v /\
      Permutation l0 (lp ++ [number]) /\
      pwf n m Am s' lp (l1 ++ [number]) k0 k1 /\ tqf n (p_sizeT s) lp k1 Am Q T /\
      (updC && plainH (p_b s) = false -> Ra = q_R (p_b s)) /\
      (updC && plainH (p_b s) = true -> rinv n (zlen l0 - zlen k1 - 1) lp Hm Q Ra)).
Proof.
  intros W Hin Hv TQ0 (p0 & Hp0 & Np0) RI0. destruct (pw_A _ _ _ _ _ _ _ _ _ _ _ W) as (M & EA & OA).
  assert (ZN : 0 <= zero) by lra.
  pose proof (pw_n _ _ _ _ _ _ _ _ _ _ _ W) as En. pose proof (pw_m _ _ _ _ _ _ _ _ _ _ _ W) as Em.
  pose proof (pw_b _ _ _ _ _ _ _ _ _ _ _ W) as Wb. pose proof (pw_c _ _ _ _ _ _ _ _ _ _ _ W) as Wc.
  pose proof (pw_Q _ _ _ _ _ _ _ _ _ _ _ W) as LQ. pose proof (pw_R _ _ _ _ _ _ _ _ _ _ _ W) as LR.
  pose proof (pw_T _ _ _ _ _ _ _ _ _ _ _ W) as LT. pose proof (pw_sT _ _ _ _ _ _ _ _ _ _ _ W) as EsT.
  unfold pV in En. unfold pC in Em.
  (* the variable becomes the last one of the free list *)
  assert (SW : exists lp b1, Permutation l0 (lp ++ [number]) /\ st_wf b1 (lp ++ [number]) l1 /\ same_meta (p_bounds s) b1 /\ st_status b1 = st_status (p_bounds s) /\
      (last <- il_getLastNumber (p_free s) ;;
       (if negb (last =? number)%Z then '(_, b) <- st_swapFree (p_bounds s) number last ;; Ok (up_b (set_q_bounds b) s) else Ok s)) = Ok (up_b (set_q_bounds b1) s)).
  { destruct (exists_last (l := l0)) as (la & x & El); [intros ->; destruct Hin|].
    rewrite (getLastNumber_spec (p_free s) la x) by (rewrite <- El; exact (wf_ina _ _ _ Wb)). cbn [bind].
    destruct (Z.eqb_spec x number) as [->|Nx]; cbn [negb].
    - exists la, (p_bounds s). rewrite <- El. split; [apply Permutation_refl|]. split; [exact Wb|]. split; [repeat split|]. split; [reflexivity|]. destruct s as [b]; destruct b; reflexivity.
    - assert (Ix : In x l0) by (rewrite El; apply in_or_app; right; now left).
      destruct (swapFree_ok (p_bounds s) l0 l1 number x Wb Hin Ix) as (b1 & E1 & W1 & SM & SS). rewrite E1. cbn [bind].
      exists (spec_swap la number x), b1.
      assert (EQ : spec_swap l0 number x = spec_swap la number x ++ [number]).
      { rewrite El. unfold spec_swap. rewrite map_app. cbn [map]. destruct (Z.eqb_spec x number); [contradiction|]. now rewrite Z.eqb_refl. }
      rewrite <- EQ. split; [|auto]. apply NoDup_Permutation; [exact (rep_NoDup _ _ (wf_ina _ _ _ Wb))|exact (rep_NoDup _ _ (wf_ina _ _ _ W1))|].
      intros y. symmetry. now apply spec_swap_In. }
  destruct SW as (lp & b1 & PM & Wb1 & SM1 & SS1 & ESW).
  set (l := lp ++ [number]) in *.
  assert (TQ' : tqf n (p_sizeT s) l k1 Am (p_Q s) (p_T s)) by (now apply (tqf_perm _ _ l0)).
  assert (RI : updC && plainH (p_b s) = true -> rinv n (zlen l0 - zlen k1) l Hm (p_Q s) (q_R (p_b s))) by (intros U; apply (rinv_perm n _ l0); auto).
  destruct TQ' as (LE & OQ & TQ & TD). clear TQ0 RI0.
  assert (En1 : st_n b1 = n) by (destruct SM1 as (-> & _); exact En).
  destruct (range_b _ _ _ Wb1) as (Rg0 & Rg1). destruct (range_b _ _ _ Wc) as (Rk0 & Rk1). destruct (len_b _ _ _ Wb1) as (Ln0 & _). destruct (len_b _ _ _ Wc) as (Lk0 & Lk1).
  rewrite En1 in *. rewrite Em in *.
  assert (ND : NoDup l) by exact (rep_NoDup _ _ (wf_ina _ _ _ Wb1)).
  assert (ELL : zlen l = zlen l0) by (symmetry; now apply perm_zlen).
  assert (ELP : zlen l = (zlen lp + 1)%Z) by (unfold l; now rewrite zlen_app).
  assert (EF : pFR s = zlen l) by (rewrite ELL; exact (rep_len _ _ (wf_ina _ _ _ Wb))). assert (EC : pAC s = zlen k1) by exact (rep_len _ _ (wf_act _ _ _ Wc)).
  rewrite <- ELL in *.
  set (nfr := zlen l) in *. set (nac := zlen k1) in *. set (sT := p_sizeT s) in *.
  assert (N0 : (0 <= nac)%Z) by apply zlen_nonneg. assert (NF : (0 <= nfr)%Z) by apply zlen_nonneg.
  assert (SZ : (nac <= sT)%Z) by lia. assert (Inl : In number l) by (unfold l; apply in_or_app; right; now left).
  unfold addBound_update. unfold pZ. rewrite EF, EC. change (pV s) with (st_n (p_bounds s)). rewrite En.
  rewrite <- bind_bind. rewrite ESW. cbn [bind]. set (s1 := up_b (set_q_bounds b1) s).
  assert (RD : forall k, (0 <= k < nfr)%Z -> rd (p_FR s1) k = Ok (zn 0%Z l k)) by (intros k Hk; now apply (rep_rd _ _ _ Wb1)).
  rewrite RD by lia. cbn [bind].
  assert (ELAST : zn 0%Z l (nfr - 1) = number) by (unfold l; rewrite zn_app2 by lia; now replace (nfr - 1 - zlen lp)%Z with 0%Z by lia).
  rewrite ELAST. change (p_Q s1) with (p_Q s). change (p_T s1) with (p_T s). change (q_R (p_b s1)) with (q_R (p_b s)). fold sT.
  assert (IQ : forall u q, (0 <= u < n)%Z -> (0 <= q < n)%Z -> (0 <= u + n * q < n * n)%Z) by (intros; nia).
  specialize (Rg0 number Inl) as Rnum.
  apply wp_bind. apply (wp_fill 0 (fun q => ce n (p_Q s) number q)); [rewrite J by lia; lia| |].
  { intros i w Hi Lw. rcar. rewrite (rd_ok 0) by (rewrite LQ; apply IQ; lia). cbn [bind]. rewrite J in Lw by lia. now rewrite wr_ok by lia. }
  intros w0 Lw0 Vw0 _. rewrite J in Lw0 by lia.
  apply wp_bind. eapply wp_mono.
  { apply (zRotations_ok eps zero infty ZN n (p_FR s1) l nfr (nfr - nac) (updC && plainH (p_b s)) w0 (p_Q s) (q_R (p_b s)) (fun u => delta u number) Hm); auto; try lia.
    - intros q Hq. rewrite comb_delta by auto. apply Vw0. lia.
    - intros U. destruct (RI U) as ((G & _) & S). auto. }
  intros [[w1 Q1] R1] ZI. cbv beta iota.
  assert (AB0 : abinv n sT l k1 nfr nac (nfr - nac) Am number w0 Q1 (p_T s) (nfr - nac - 1) w1 Q1 (p_T s) (zeros (N := N) nac)).
  { destruct ZI. constructor; auto.
    - unfold zeros. rewrite zlen_repeat. rcar. lia.
    - intros q Hq. destruct (Z_lt_le_dec q (nfr - nac)).
      + rewrite zi_wa by lia. now apply comb_delta.
      + rewrite zi_wb by lia. rewrite Vw0 by lia. symmetry. apply zi_cols; auto. lia.
    - intros Z0. assert (NN : rsum 0 (nfr - nac) (fun q => zn 0 w0 q * zn 0 w0 q) <> 0) by (apply (rsum_sq_nz _ _ p0); [lia|]; rewrite Vw0 by lia; exact Np0).
      apply NN. rewrite <- zi_norm. apply rsum_0. intros q Hq. destruct (Z.eq_dec q (nfr - nac - 1)) as [->|]; [rewrite Z0; ring|]. rewrite zi_zero by (auto; lia). ring.
    - intros i p Hi Hp. destruct (Z_lt_le_dec p (nfr - nac)) as [Lp|Lp].
      + rewrite zi_ker; [|intros q Hq; rewrite TQ by lia; destruct (Z.leb_spec (nfr - 1) (i + q)); [lia|reflexivity]|lia].
        destruct (Z.ltb_spec p (nfr - nac - 1)); [destruct (Z.leb_spec (nfr - 2) (i + p)); [lia|reflexivity]|]. destruct (Z.eqb_spec p (nfr - nac - 1)); [|lia].
        unfold zeros. rewrite zn_repeat by lia. reflexivity.
      + transitivity (comb l (Am (zn 0%Z k1 i)) (ce n (p_Q s)) p); [apply comb_ext; intros u Hu; apply zi_cols; auto; lia|].
        rewrite TQ by lia. destruct (Z.ltb_spec p (nfr - nac - 1)); [lia|]. destruct (Z.eqb_spec p (nfr - nac - 1)); [lia|]. reflexivity.
    - intros i Hi _. unfold zeros. rewrite zn_repeat by lia. reflexivity. }
  assert (LQ1 : zlen Q1 = (n * n)%Z) by exact (eq_trans (zi_Q _ _ _ _ _ _ _ _ _ _ _ _ _ _ _ ZI) LQ).
  apply wp_bind.
  refine (wp_any _ (fun '(Q, T) => exists w tmp, abinv n sT l k1 nfr nac (nfr - nac) Am number w0 Q1 (p_T s) (nfr - 1) w Q T tmp) _ _ _).
  { destruct (Z.ltb_spec 0 nac) as [Hn|Hn].
    - pose proof (abstep n (p_FR s1) l k1 nfr nac (nfr - nac) sT Am number w0 Q1 (p_T s) (nfr - nac - 1) w1 Q1 (p_T s) (zeros (N := N) nac)
        LQ1 ND Rg0 eq_refl Ln0 SZ eq_refl N0 RD ltac:(lia) Lw0 Inl LT ltac:(lia) AB0) as ST1.
      replace (nfr - 2 - (nfr - nac - 1))%Z with (nac - 1)%Z in ST1 by lia. replace (1 + (sT - nac) - (nfr - nac) + (nfr - nac - 1))%Z with (sT - nac)%Z in ST1 by lia.
      replace (nfr - nac - 1 + 1)%Z with (nfr - nac)%Z in ST1 by lia.
      apply wp_inv in ST1 as ([[[w2 Q2] T2] tmp2] & E2 & AB1).
      destruct (pivot (N := N) (nfr - nac - 1) w1) as [[[w2' c] sn] | |]; [|discriminate E2|discriminate E2]. cbn [bind] in E2 |- *.
      destruct (rotQ (N := N) n (p_FR s1) nfr c sn (nfr - nac - 1) Q1) as [Q2'| |]; [|discriminate E2|discriminate E2]. cbn [bind] in E2 |- *.
      destruct (rotT_out (N := N) sT (nac - 1) nac c sn (sT - nac) (p_T s) (zeros (N := N) nac)) as [[T2' tmp2']| |]; [|discriminate E2|discriminate E2]. cbn [bind] in E2 |- *.
      injection E2 as -> -> -> ->.
      apply wp_bind. apply wp_for_up with (I := fun j '(w, Q, T, tmp) => abinv n sT l k1 nfr nac (nfr - nac) Am number w0 Q1 (p_T s) j w Q T tmp); [lia|exact AB1| |].
      + intros j [[[w Q] T] tmp] Hj AB. apply (abstep n (p_FR s1) l k1 nfr nac (nfr - nac) sT Am number w0 Q1 (p_T s) j w Q T tmp); auto; lia.
      + intros [[[w Q] T] tmp] AB. apply wp_ok. exists w, tmp. exact AB.
    - apply wp_ok. exists w1, (zeros (N := N) nac). replace (nfr - 1)%Z with (nfr - nac - 1)%Z by lia. exact AB0. }
  intros [Q T] (w & tmp & AB). cbv beta iota.
  assert (QZ : forall q, (0 <= q < nfr - 1)%Z -> ce n Q number q = 0).
  { intros q Hq. rewrite <- (ab_wq _ _ _ _ _ _ _ _ _ _ _ _ _ _ _ _ _ AB) by lia. apply (ab_w0 _ _ _ _ _ _ _ _ _ _ _ _ _ _ _ _ _ AB). lia. }
  destruct (orth_last nfr lp number (ce n Q) ND ltac:(lia) (ab_orth _ _ _ _ _ _ _ _ _ _ _ _ _ _ _ _ _ AB) QZ) as (OL & _).
  assert (CL : forall a q, (0 <= q < nfr - 1)%Z -> comb lp a (ce n Q) q = comb l a (ce n Q) q).
  { intros a q Hq. unfold l, comb. rewrite lsum_app. cbn [lsum]. rewrite QZ by lia. ring. }
  assert (TQF : tqf n sT lp k1 Am Q T).
  { unfold tqf. replace (zlen lp) with (nfr - 1)%Z by lia. fold nac. split; [lia|]. split; [exact OL|]. split.
    - intros i p Hi Hp. rewrite CL by lia. rewrite (ab_A _ _ _ _ _ _ _ _ _ _ _ _ _ _ _ _ _ AB) by lia. destruct (Z.ltb_spec p (nfr - 1)); [|lia].
      replace (nfr - 1 - 1)%Z with (nfr - 2)%Z by lia. replace (sT - (nfr - 1) + p)%Z with (sT - nfr + p + 1)%Z by lia. reflexivity.
    - intros i Hi. apply (ab_diag _ _ _ _ _ _ _ _ _ _ _ _ _ _ _ _ _ AB). exact Hi. }
  assert (ZE : forall a b, (0 <= a < nfr - nac - 1)%Z -> (0 <= b < nfr - nac - 1)%Z -> zhz lp Hm (ce n Q) a b = zhz l Hm (ce n Q1) a b).
  { intros a b Ha Hb. transitivity (zhz l Hm (ce n Q) a b).
    - unfold zhz, l. rewrite lsum_app. cbn [lsum]. rewrite Rplus_0_r.
      rewrite (lsum_ext lp _ (fun u => lsum (lp ++ [number]) (fun v => ce n Q u a * Hm u v * ce n Q v b))).
      2:{ intros u Hu. rewrite lsum_app. cbn [lsum]. rewrite (QZ b) by lia. ring. }
      rewrite (lsum_0 (lp ++ [number])); [ring|]. intros u Hu. rewrite (QZ a) by lia. ring.
    - apply zhz_ext; intros u Hu; apply (ab_cols _ _ _ _ _ _ _ _ _ _ _ _ _ _ _ _ _ AB); auto; lia. }
  assert (RR : wp (if updC && plainH (p_b s) then restoreR (N := N) n (nfr - nac) R1 else Ok R1) (fun R2 => zlen R2 = zlen (q_R (p_b s)) /\
      (updC && plainH (p_b s) = false -> R2 = q_R (p_b s)) /\ (updC && plainH (p_b s) = true -> rinv n (nfr - nac - 1) lp Hm Q R2))).
  { destruct (updC && plainH (p_b s)) eqn:EU.
    - assert (LRa : zlen R1 = (n * n)%Z) by exact (eq_trans (zi_R _ _ _ _ _ _ _ _ _ _ _ _ _ _ _ ZI) LR).
      eapply wp_mono; [apply (restoreR_ok eps zero infty ZN n (nfr - nac) R1 (zhz l Hm (ce n Q1))); auto; [lia|exact (zi_gram _ _ _ _ _ _ _ _ _ _ _ _ _ _ _ ZI eq_refl)]|].
      intros R2 (L2 & G2 & S2 & C2 & O2). split; [exact (eq_trans L2 (zi_R _ _ _ _ _ _ _ _ _ _ _ _ _ _ _ ZI))|]. split; [discriminate|]. intros _.
      destruct (RI eq_refl) as ((G & D) & S). apply (rinv_shrink n (nfr - nac) lp Hm Q R2 (zhz l Hm (ce n Q1))); auto; try lia.
      + apply (zi_pd _ _ _ _ _ _ _ _ _ _ _ _ _ _ _ ZI). apply (gram_posdef _ (triu (q_R (p_b s)) n)); auto; [apply triu_upper|]. intros i Hi. rewrite triu_diag. auto.
      + intros p Hp Hp1. destruct (Z_lt_le_dec (p + 1) (nfr - nac)); [apply S2; lia|]. rewrite O2 by lia. apply (zi_sub _ _ _ _ _ _ _ _ _ _ _ _ _ _ _ ZI eq_refl); lia.
    - apply wp_ok. split; [exact (zi_R _ _ _ _ _ _ _ _ _ _ _ _ _ _ _ ZI)|]. split; [|discriminate]. intros _. exact (zi_same _ _ _ _ _ _ _ _ _ _ _ _ _ _ _ ZI eq_refl). }
  apply wp_bind. eapply wp_mono; [exact RR|]. intros R2 (L2 & F2 & I2). cbv beta iota zeta.
  change (p_bounds (set_p_T (N := N) T (set_p_Q (N := N) Q (up_b (N := N) (set_q_R (N := N) R2) s1)))) with b1.
  destruct (activate_ok b1 l l1 number v Wb1 Inl Hv) as (b2 & Eb & Wb2 & SM & SS). rewrite Eb. cbn [bind]. apply wp_ok. split; [reflexivity|].
  assert (NIn : ~ In number lp). { unfold l in ND. apply NoDup_remove_2 in ND. now rewrite app_nil_r in ND. }
  assert (EP : spec_remove l number = lp) by (now apply spec_remove_last). rewrite EP in Wb2.
  exists lp, b2, T, Q, R2. split; [unfold s1; destruct s as [b]; destruct b; reflexivity|].
  split; [destruct SM1 as (? & ? & ? & ?), SM as (? & ? & ? & ?); repeat split; congruence|]. split; [now rewrite SS, SS1|]. split; [exact PM|].
  split; [|split; [exact TQF|split; [exact F2|exact I2]]].
  constructor; auto.
  - change (st_n b2 = n). destruct SM as (-> & _). exact En1.
  - exact (eq_trans (ab_Q _ _ _ _ _ _ _ _ _ _ _ _ _ _ _ _ _ AB) LQ1).
  - exact (eq_trans L2 LR).
  - exact (eq_trans (ab_T _ _ _ _ _ _ _ _ _ _ _ _ _ _ _ _ _ AB) LT).
  - exists M. auto.
Qed.
End X6.
