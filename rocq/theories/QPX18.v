(** Exact step direction of QProblem, part 1: the equations and the loops. *)
From Verif Require Import Base Types Num Options Indexlist IndexlistProofs Loops RSum LinSpec SafeLib SubjectTo SubjectToProofs SubjectToProofs2
  Flipper PropFlipper Matrices MatLib MatSafe CsLib PropDense PropSparse PropSparse2 LinAlg PropLinAlg QProblemB QPBSafe QPBSafe2 QPBX1 QPBX2 QPBX3 QPBX4 QPBX5 QPBX7 QProblem QProblem2
  QPX1 QPX2 QPX3 QPX4 QPX5 QPX6 QPX7 QPX8 QPX9 QPX10 QPX11 QPX12 QPX13 QPX14 QPX15 QPX16.
Local Open Scope R_scope.

(** ** Sums *)
Lemma rsum_mv A B f g x : rsum 0 A (fun i => f i * rsum 0 B (fun j => g i j * x j)) = rsum 0 B (fun j => rsum 0 A (fun i => f i * g i j) * x j).
Proof.
  rewrite (rsum_ext 0 A _ (fun i => rsum 0 B (fun j => f i * (g i j * x j)))) by (intros; now rewrite rsum_scal).
  rewrite rsum_swap. apply rsum_ext. intros j Hj. rewrite <- rsum_scal_r. apply rsum_ext. intros; ring.
Qed.
Lemma rsum_mv_l A B f g x : rsum 0 A (fun i => f i * rsum 0 B (fun j => x j * g j i)) = rsum 0 B (fun j => x j * rsum 0 A (fun i => f i * g j i)).
Proof.
  rewrite (rsum_ext 0 A _ (fun i => f i * rsum 0 B (fun j => g j i * x j))) by (intros; f_equal; apply rsum_ext; intros; ring).
  rewrite (rsum_mv A B f (fun i j => g j i)). apply rsum_ext. intros; ring.
Qed.

(** ** The equations solved by one round *)
Section Alg.
Variables (nf nc nz : Z) (q a t h : Z -> Z -> R).
Hypothesis dims : (nf = nz + nc /\ 0 <= nz /\ 0 <= nc)%Z.
Hypothesis qrows : forall i j, (0 <= i < nf)%Z -> (0 <= j < nf)%Z -> rsum 0 nf (fun p => q i p * q j p) = delta i j.
Hypothesis az : forall i p, (0 <= i < nc)%Z -> (0 <= p < nz)%Z -> rsum 0 nf (fun j => a i j * q j p) = 0.
Hypothesis ay : forall i p, (0 <= i < nc)%Z -> (0 <= p < nc)%Z -> rsum 0 nf (fun j => a i j * q j (nz + p)%Z) = t i p.

Lemma q_zero w : (forall p, (0 <= p < nf)%Z -> rsum 0 nf (fun i => q i p * w i) = 0) -> forall i, (0 <= i < nf)%Z -> w i = 0.
Proof.
  intros U i Hi. rewrite <- (rsum_pick 0 nf i w) by exact Hi.
  rewrite (rsum_ext 0 nf _ (fun j => rsum 0 nf (fun p => q i p * q j p) * w j)) by (intros j Hj; now rewrite qrows).
  rewrite <- (rsum_mv nf nf (q i) (fun p j => q j p) w). apply rsum_0. intros p Hp. rewrite U by exact Hp. ring.
Qed.

Lemma a_step dxy dxz rb i : (0 <= i < nc)%Z -> (forall i, (0 <= i < nc)%Z -> rsum 0 nc (fun p => t i p * dxy p) = rb i) ->
  rsum 0 nf (fun j => a i j * (rsum 0 nc (fun p => q j (nz + p)%Z * dxy p) + rsum 0 nz (fun p => q j p * dxz p))) = rb i.
Proof.
  intros Hi T. rewrite (rsum_ext 0 nf _ (fun j => a i j * rsum 0 nc (fun p => q j (nz + p)%Z * dxy p) + a i j * rsum 0 nz (fun p => q j p * dxz p))) by (intros; ring).
  rewrite rsum_plus. rewrite (rsum_mv nf nc (a i) (fun j p => q j (nz + p)%Z)), (rsum_mv nf nz (a i) (fun j p => q j p)).
  rewrite (rsum_0 0 nz) by (intros p Hp; rewrite az by auto; ring). rewrite <- (T i Hi), Rplus_0_r. apply rsum_ext. intros p Hp. now rewrite ay.
Qed.

Lemma round_solves rg tmp dy :
  (forall p, (0 <= p < nz)%Z -> rsum 0 nf (fun i => q i p * (rg i + rsum 0 nf (fun j => h i j * tmp j))) = 0) ->
  (forall p, (0 <= p < nc)%Z -> rsum 0 nc (fun k => t k p * dy k) = rsum 0 nf (fun i => q i (nz + p)%Z * (rg i + rsum 0 nf (fun j => h i j * tmp j)))) ->
  forall i, (0 <= i < nf)%Z -> rg i + rsum 0 nf (fun j => h i j * tmp j) - rsum 0 nc (fun k => a k i * dy k) = 0.
Proof.
  intros ZS YS. apply q_zero. intros p Hp.
  rewrite (rsum_ext 0 nf _ (fun i => q i p * (rg i + rsum 0 nf (fun j => h i j * tmp j)) - q i p * rsum 0 nc (fun k => a k i * dy k))) by (intros; ring).
  rewrite rsum_minus. rewrite (rsum_mv nf nc (fun i => q i p) (fun i k => a k i) dy).
  destruct (Z.lt_ge_cases p nz) as [L|L].
  - rewrite ZS by lia. rewrite rsum_0; [ring|]. intros k Hk. rewrite (rsum_ext 0 nf _ (fun i => a k i * q i p)) by (intros; ring). rewrite az by lia. ring.
  - specialize (YS (p - nz)%Z ltac:(lia)). replace (nz + (p - nz))%Z with p in YS by lia. rewrite <- YS.
    rewrite (rsum_ext 0 nc (fun j => rsum 0 nf (fun i => q i p * a j i) * dy j) (fun k => t k (p - nz)%Z * dy k)); [ring|]. intros k Hk. rewrite <- ay by lia. replace (nz + (p - nz))%Z with p by lia. f_equal. apply rsum_ext. intros; ring.
Qed.
End Alg.

(** ** Loops *)
Lemma cell_loop (a : list R) k m body f : (0 <= m)%Z -> (0 <= k < zlen a)%Z ->
  (forall i b, (0 <= i < m)%Z -> zlen b = zlen a -> body i b = Ok (zupd b k (zn 0 b k + f i))) -> for_up 0 m body a = Ok (zupd a k (zn 0 a k + rsum 0 m f)).
Proof.
  intros Hm Hk B. assert (W : wp (for_up 0 m body a) (fun b => b = zupd a k (zn 0 a k + rsum 0 m f))).
  { apply wp_for_up with (I := fun i b => b = zupd a k (zn 0 a k + rsum 0 i f)); auto.
    - rewrite rsum_empty by lia. rewrite Rplus_0_r. symmetry. apply zupd_same.
    - intros i b Hi ->. rewrite B by (rewrite ?zlen_zupd; auto). cbn [wp]. rewrite zupd_zupd, zn_zupd by lia. rewrite Z.eqb_refl. rewrite rsum_last by lia. f_equal. ring. }
  destruct (wp_inv _ _ W) as (b & E & ->). exact E.
Qed.

Section X18.
Variables eps zero infty : R.
Notation N := (RNumT eps zero infty).
Notation arr := (list R).
Hypothesis eps_nn : 0 <= eps.
Hypothesis zero_nn : 0 <= zero.

Ltac rdx := rewrite (rd_ok 0) by (rcar; rewrite ?zlen_zupd; lia); cbn [bind].

Section Dir.
Variables (n m : Z) (Am Hm : Z -> Z -> R) (s : qp N) (l0 l1 k0 k1 : list Z).
Hypothesis I : pinv eps zero infty n m Am s l0 l1 k0 k1.
Hypothesis HE : hess eps zero infty n (p_b s) Hm.
Hypothesis RX : Rexact eps zero infty n s (zlen l0 - zlen k1) l0 Hm.

Notation nf := (zlen l0).
Notation nx := (zlen l1).
Notation nc := (zlen k1).
Notation nz := (zlen l0 - zlen k1)%Z.
Definition dq (i p : Z) : R := ce n (p_Q s) (zz l0 i) p.
Definition dt (i p : Z) : R := tt nc (p_sizeT s) (p_T s) i p.
Definition da (i j : Z) : R := Am (zz k1 i) (zz l0 j).
Definition dh (i j : Z) : R := Hm (zz l0 i) (zz l0 j).

Record dims : Prop := {
  d_n : pV s = n; d_m : pC s = m; d_f : pFR s = nf; d_x : pFX s = nx; d_c : pAC s = nc; d_z : pZ s = nz;
  d_nf : (0 <= nf <= n)%Z; d_nx : (0 <= nx <= n)%Z; d_nc : (0 <= nc <= m)%Z; d_nz : (0 <= nz)%Z;
  d_r0 : forall i, (0 <= i < nf)%Z -> (0 <= zz l0 i < n)%Z; d_r1 : forall i, (0 <= i < nx)%Z -> (0 <= zz l1 i < n)%Z;
  d_rc : forall i, (0 <= i < nc)%Z -> (0 <= zz k1 i < m)%Z;
  d_i0 : il_rep (p_free s) l0; d_i1 : il_rep (p_fixed s) l1; d_ic : il_rep (p_active s) k1;
  d_v0 : forall v, In v l0 -> (0 <= v < n)%Z; d_v1 : forall v, In v l1 -> (0 <= v < n)%Z; d_vc : forall v, In v k1 -> (0 <= v < m)%Z;
  d_sT : (nc <= p_sizeT s)%Z; d_T : zlen (p_T s) = (p_sizeT s * p_sizeT s)%Z; d_Q : zlen (p_Q s) = (n * n)%Z; d_R : zlen (q_R (p_b s)) = (n * n)%Z
}.
Lemma mkdims : dims.
Proof using I.
  destruct I as [[En Em Wb Wc LQ LR ES LT WA] F Ly (M & EA & OA) TQ]. destruct (range_b _ _ _ Wb) as (Rg0 & Rg1). destruct (range_b _ _ _ Wc) as (_ & Rgc).
  destruct (len_b _ _ _ Wb) as (Ln0 & Ln1). destruct (len_b _ _ _ Wc) as (_ & Lnc). change (st_n (p_bounds s)) with (pV s) in *. change (st_n (p_cons s)) with (pC s) in *. rewrite En, Em in *.
  destruct TQ as (LE & _). pose proof (zlen_nonneg l0). pose proof (zlen_nonneg l1). pose proof (zlen_nonneg k1).
  assert (EF : pFR s = nf) by exact (rep_len _ _ (wf_ina _ _ _ Wb)). assert (EC : pAC s = nc) by exact (rep_len _ _ (wf_act _ _ _ Wc)). assert (EX : pFX s = nx) by exact (rep_len _ _ (wf_act _ _ _ Wb)).
  constructor; auto; try lia; try (unfold pZ; lia).
  - intros i Hi. apply Rg0, zn_In, Hi.
  - intros i Hi. apply Rg1, zn_In, Hi.
  - intros i Hi. apply Rgc, zn_In, Hi.
  - exact (wf_ina _ _ _ Wb).
  - exact (wf_act _ _ _ Wb).
  - exact (wf_act _ _ _ Wc).
Qed.
Lemma nd0 : NoDup l0.
Proof using I. exact (rep_NoDup _ _ (d_i0 mkdims)). Qed.
Lemma nd1 : NoDup l1.
Proof using I. exact (rep_NoDup _ _ (d_i1 mkdims)). Qed.
Lemma rdFR i : (0 <= i < nf)%Z -> rd (p_FR s) i = Ok (zz l0 i).
Proof using I. intros Hi. apply rd_rep; [exact (d_i0 mkdims)|exact Hi]. Qed.
Lemma rdFX i : (0 <= i < nx)%Z -> rd (p_FX s) i = Ok (zz l1 i).
Proof using I. intros Hi. apply rd_rep; [exact (d_i1 mkdims)|exact Hi]. Qed.
Lemma rdAC i : (0 <= i < nc)%Z -> rd (p_AC s) i = Ok (zz k1 i).
Proof using I. intros Hi. apply rd_rep; [exact (d_ic mkdims)|exact Hi]. Qed.
Lemma rdQ i p : (0 <= i < nf)%Z -> (0 <= p < nf)%Z -> rd (p_Q s : arr) (zz l0 i + n * p) = Ok (dq i p).
Proof using I. intros Hi Hp. destruct mkdims. specialize (d_r2 i Hi). rewrite (rd_ok 0) by (apply (ce_in n (p_Q s) n); rcar; lia). reflexivity. Qed.

Lemma apart2 p r : (0 <= p < nf)%Z -> (0 <= r < nx)%Z -> zz l0 p <> zz l1 r.
Proof using I.
  intros Hp Hr E. destruct I as [[En Em Wb _ _ _ _ _ _] _ _ _ _]. pose proof (proj1 (wf_in0 _ _ _ Wb (zz l0 p)) (zn_In 0%Z l0 p Hp)) as (_ & A).
  pose proof (proj1 (wf_in1 _ _ _ Wb (zz l1 r)) (zn_In 0%Z l1 r Hr)) as (_ & B). rewrite <- E, A in B. discriminate B.
Qed.

(** the factorisation, by position *)
Lemma f_rows i j : (0 <= i < nf)%Z -> (0 <= j < nf)%Z -> rsum 0 nf (fun p => dq i p * dq j p) = delta i j.
Proof using I.
  intros Hi Hj. destruct (pi_tq _ _ _ _ _ _ _ _ _ _ _ I) as (_ & (_ & O2) & _). unfold dq. rewrite O2 by (apply zn_In; lia). apply delta_nodup; auto. apply nd0.
Qed.
Lemma f_cols p r : (0 <= p < nf)%Z -> (0 <= r < nf)%Z -> rsum 0 nf (fun i => dq i p * dq i r) = delta p r.
Proof using I.
  intros Hp Hr. destruct (pi_tq _ _ _ _ _ _ _ _ _ _ _ I) as (_ & (O1 & _) & _). unfold dq. rewrite <- (O1 p r Hp Hr). now rewrite <- (rsum_list l0 (fun v => ce n (p_Q s) v p * ce n (p_Q s) v r)).
Qed.
Lemma f_comb i p : rsum 0 nf (fun j => da i j * dq j p) = comb l0 (Am (zz k1 i)) (ce n (p_Q s)) p.
Proof using. unfold comb, da, dq. now rewrite <- (rsum_list l0 (fun v => Am (zz k1 i) v * ce n (p_Q s) v p)). Qed.
Lemma f_az i p : (0 <= i < nc)%Z -> (0 <= p < nz)%Z -> rsum 0 nf (fun j => da i j * dq j p) = 0.
Proof using I.
  intros Hi Hp. rewrite f_comb. destruct (pi_tq _ _ _ _ _ _ _ _ _ _ _ I) as (_ & _ & AT & _). rewrite AT by lia. destruct (Z.leb_spec (nf - 1) (i + p)); [lia|reflexivity].
Qed.
Lemma f_ay i p : (0 <= i < nc)%Z -> (0 <= p < nc)%Z -> rsum 0 nf (fun j => da i j * dq j (nz + p)%Z) = dt i p.
Proof using I.
  intros Hi Hp. rewrite f_comb. destruct (pi_tq _ _ _ _ _ _ _ _ _ _ _ I) as (LE & _ & AT & _). rewrite AT by lia. unfold dt, tt.
  destruct (Z.leb_spec (nf - 1) (i + (nz + p))), (Z.leb_spec (nc - 1) (i + p)); try lia; [|reflexivity]. f_equal. lia.
Qed.
Lemma f_zhz p r : (0 <= p < nz)%Z -> (0 <= r < nz)%Z -> zhz l0 Hm (ce n (p_Q s)) p r = rsum 0 nf (fun i => dq i p * rsum 0 nf (fun j => dh i j * dq j r)).
Proof using.
  intros Hp Hr. unfold zhz, dq, dh.
  rewrite (rsum_list l0 (fun u => ce n (p_Q s) u p * rsum 0 nf (fun j => Hm u (zz l0 j) * ce n (p_Q s) (zz l0 j) r))).
  apply lsum_ext. intros u Hu. rewrite (rsum_list l0 (fun v => Hm u v * ce n (p_Q s) v r)), <- lsum_scal. apply lsum_ext. intros; ring.
Qed.

(** ** Vectors selected by an index list *)
Lemma gFR_ok (d : pshift (N := N)) (a : arr) : (n <= zlen (sh_g d))%Z -> (nf <= zlen a)%Z ->
  wp (pd_gFR (N := N) s d a) (fun a' : arr => zlen a' = zlen a /\ forall p, (0 <= p < nf)%Z -> zn 0 a' p = zn 0 (sh_g d) (zz l0 p)).
Proof using I.
  intros Lg La. unfold pd_gFR. destruct mkdims. rewrite d_f0. apply (wp_fill (0:R) (fun p => zn 0 (sh_g d) (zz l0 p))); [rcar; lia| |].
  - intros i b Hi Lb. rewrite (rdFR i Hi). cbn [bind]. specialize (d_r2 i Hi). rdx. apply wr_ok. rcar; lia.
  - intros b Lb V _. split; [exact Lb|exact V].
Qed.
Definition bC (d : pshift (N := N)) (bCz : bool) (i : Z) : R := if bCz then 0 else if is_sts (zs (st_status (p_cons s)) i) ST_LOWER then zn 0 (sh_lbA d) i else zn 0 (sh_ubA d) i.
Definition bB (d : pshift (N := N)) (bBz : bool) (i : Z) : R := if bBz then 0 else if is_sts (zs (st_status (p_bounds s)) i) ST_LOWER then zn 0 (sh_lb d) i else zn 0 (sh_ub d) i.
Lemma bAC_ok (d : pshift (N := N)) bCz (a : arr) : (m <= zlen (sh_lbA d))%Z -> (m <= zlen (sh_ubA d))%Z -> (nc <= zlen a)%Z ->
  wp (pd_bAC (N := N) s d bCz a) (fun a' : arr => zlen a' = zlen a /\ forall p, (0 <= p < nc)%Z -> zn 0 a' p = bC d bCz (zz k1 p)).
Proof using I.
  intros Ll Lu La. unfold pd_bAC. destruct mkdims. rewrite d_c0. apply (wp_fill (0:R) (fun p => bC d bCz (zz k1 p))); [rcar; lia| |].
  - intros i b Hi Lb. unfold bC. destruct bCz; [apply wr_ok; rcar; lia|]. rewrite (rdAC i Hi). cbn [bind]. specialize (d_rc0 i Hi).
    rewrite (getStatus_ok _ _ _ _ (pw_c _ _ _ _ _ _ _ _ _ _ _ (pi_w _ _ _ _ _ _ _ _ _ _ _ I))) by (change (st_n (p_cons s)) with (pC s); lia). cbn [bind].
    destruct (is_sts _ _); rdx; apply wr_ok; rcar; lia.
  - intros b Lb V _. split; [exact Lb|exact V].
Qed.
Lemma xFX_ok (d : pshift (N := N)) bBz (a : arr) : (n <= zlen (sh_lb d))%Z -> (n <= zlen (sh_ub d))%Z -> (nx <= zlen a)%Z ->
  wp (pd_xFX (N := N) s d bBz a) (fun a' : arr => zlen a' = zlen a /\ forall p, (0 <= p < nx)%Z -> zn 0 a' p = bB d bBz (zz l1 p)).
Proof using I.
  intros Ll Lu La. unfold pd_xFX. destruct mkdims. rewrite d_x0. apply (wp_fill (0:R) (fun p => bB d bBz (zz l1 p))); [rcar; lia| |].
  - intros i b Hi Lb. unfold bB. destruct bBz; [apply wr_ok; rcar; lia|]. rewrite (rdFX i Hi). cbn [bind]. specialize (d_r3 i Hi).
    rewrite (getStatus_ok _ _ _ _ (pw_b _ _ _ _ _ _ _ _ _ _ _ (pi_w _ _ _ _ _ _ _ _ _ _ _ I))) by (change (st_n (p_bounds s)) with (pV s); lia). cbn [bind].
    destruct (is_sts _ _); rdx; apply wr_ok; rcar; lia.
  - intros b Lb V _. split; [exact Lb|exact V].
Qed.

(** ** Products with the columns of Q *)
Lemma negZt_ok (a acc : arr) : (nf <= zlen a)%Z -> (nz <= zlen acc)%Z ->
  wp (pd_negZt (N := N) s a acc) (fun r : arr => zlen r = zlen acc /\ forall p, (0 <= p < nz)%Z -> zn 0 r p = zn 0 acc p - rsum 0 nf (fun j => dq j p * zn 0 a j)).
Proof using I.
  intros La Lc. unfold pd_negZt. destruct mkdims. rewrite d_f0, d_z0, d_n0.
  apply (wp_acc nz 0 nf _ (fun j p => - (dq j p * zn 0 a j))); try lia.
  { intros j w Hj Lw. rewrite (rdFR j Hj). cbn [bind].
    destruct (fill_loop 0 (fun i acc => v <- rd acc i ;; q <- rd (p_Q s) (zz l0 j + n * i) ;; t <- rd a j ;; wr acc i (v - q * t)) (fun i v => v - dq j i * zn 0 a j) 0 0 nz w) as (w' & E & L & V); [lia|lia| |].
    - intros i u Hi Lu. rdx. rcar. rewrite (rdQ j i) by lia. cbn [bind]. rdx. rewrite wr_ok by lia. now rewrite Z.add_0_l.
    - match goal with |- wp ?g _ => replace g with (Ok w') by (symmetry; exact E) end. apply wp_ok. split; [congruence|]. split.
      + intros i Hi. rewrite V by lia. destruct (Z.leb_spec (0 + 0) (0 + i)), (Z.ltb_spec (0 + i) (0 + nz)); try lia. cbn [andb]. replace (0 + i - 0)%Z with i by lia. ring.
      + intros k Hk Hk'. rewrite V by lia. destruct (Z.ltb_spec k (0 + nz)); try lia. now rewrite andb_false_r. }
  intros w L V _. split; [exact L|]. intros p Hp. specialize (V p Hp). rewrite Z.add_0_l in V. rewrite V. rewrite rsum_opp. ring.
Qed.
Lemma Yt_ok (a acc : arr) : (nf <= zlen a)%Z -> (nc <= zlen acc)%Z ->
  wp (pd_Yt (N := N) s a acc) (fun r : arr => zlen r = zlen acc /\ forall p, (0 <= p < nc)%Z -> zn 0 r p = zn 0 acc p + rsum 0 nf (fun i => dq i (nz + p)%Z * zn 0 a i)).
Proof using I.
  intros La Lc. unfold pd_Yt. destruct mkdims. rewrite d_f0, d_z0, d_n0, d_c0.
  apply (wp_map (0:R) (fun p v => v + rsum 0 nf (fun i => dq i (nz + p)%Z * zn 0 a i))); [rcar; lia| |].
  - intros j w Hj Lw. apply (cell_loop w j nf); [lia|lia|]. intros i b Hi Lb. rewrite (rdFR i Hi). cbn [bind]. rdx. rcar. rewrite (rdQ i (nz + j)) by lia. cbn [bind]. rdx. apply wr_ok. lia.
  - intros w L V _. split; [exact L|exact V].
Qed.
Lemma Y_ok (dxy acc : arr) : (nc <= zlen dxy)%Z -> (nf <= zlen acc)%Z ->
  wp (for_up 0 (pFR s) (fun i tmp =>
           ii <- rd (p_FR s) i ;;
           for_up 0 (pAC s) (fun j tmp =>
             v <- rd tmp i ;; q <- rd (p_Q s) (ii + pV s * (pZ s + j)) ;; t <- rd dxy j ;; wr tmp i (nadd (n := N) v (nmul (n := N) q t))) tmp) acc)
    (fun r : arr => zlen r = zlen acc /\ forall p, (0 <= p < nf)%Z -> zn 0 r p = zn 0 acc p + rsum 0 nc (fun j => dq p (nz + j)%Z * zn 0 dxy j)).
Proof using I.
  intros La Lc. destruct mkdims. rewrite d_f0, d_z0, d_n0, d_c0.
  apply (wp_map (0:R) (fun p v => v + rsum 0 nc (fun j => dq p (nz + j)%Z * zn 0 dxy j))); [rcar; lia| |].
  - intros i w Hi Lw. rewrite (rdFR i Hi). cbn [bind]. apply (cell_loop w i nc); [lia|lia|]. intros j b Hj Lb. rdx. rcar. rewrite (rdQ i (nz + j)) by lia. cbn [bind]. rdx. apply wr_ok. lia.
  - intros w L V _. split; [exact L|exact V].
Qed.
Lemma addZ_ok (dxz zfr tmp : arr) : (nz <= zlen dxz)%Z -> (nf <= zlen zfr)%Z -> (nf <= zlen tmp)%Z ->
  wp (pd_addZ (N := N) s dxz zfr tmp) (fun '((zfr', tmp') : arr * arr) => zlen zfr' = zlen zfr /\ zlen tmp' = zlen tmp /\ forall p, (0 <= p < nf)%Z ->
    zn 0 zfr' p = rsum 0 nz (fun k => dq p k * zn 0 dxz k) /\ zn 0 tmp' p = zn 0 tmp p + rsum 0 nz (fun k => dq p k * zn 0 dxz k)).
Proof using I.
  intros Ld Lz Lt. unfold pd_addZ. destruct mkdims. rewrite d_f0, d_z0, d_n0.
  apply wp_for_up with (I := fun i '((zf, tm) : arr * arr) => zlen zf = zlen zfr /\ zlen tm = zlen tmp /\
    (forall p, (0 <= p < i)%Z -> zn 0 zf p = rsum 0 nz (fun k => dq p k * zn 0 dxz k) /\ zn 0 tm p = zn 0 tmp p + rsum 0 nz (fun k => dq p k * zn 0 dxz k)) /\
    (forall p, (i <= p)%Z -> zn 0 tm p = zn 0 tmp p)); [lia| | |].
  - split; [reflexivity|]. split; [reflexivity|]. split; [intros; lia|reflexivity].
  - intros i (zf & tm) Hi (L1 & L2 & V & U). rewrite wr_ok by (rcar; lia). cbn [bind]. rewrite (rdFR i Hi). cbn [bind].
    assert (L3 : zlen (zupd zf i 0) = zlen zfr) by (rewrite zlen_zupd; exact L1).
    rewrite (cell_loop (zupd zf i 0) i nz _ (fun k => dq i k * zn 0 dxz k)); [|lia|lia|].
    2:{ intros k b Hk Lb. rdx. rcar. rewrite (rdQ i k) by lia. cbn [bind]. rdx. apply wr_ok. lia. }
    cbn [bind]. rewrite (rd_ok 0) by (rcar; lia). cbn [bind]. rewrite (rd_ok 0) by (rcar; rewrite !zlen_zupd; lia). cbn [bind]. rewrite wr_ok by (rcar; lia). cbn [bind wp].
    rewrite zupd_zupd. rewrite !zlen_zupd. split; [exact L1|]. split; [exact L2|]. split.
    + intros p Hp. rewrite !zn_zupd by (rcar; rewrite ?zlen_zupd; lia). rewrite Z.eqb_refl. destruct (Z.eqb_spec p i) as [->|Ne]; [|apply V; lia].
      rnum. rewrite U by lia. split; ring.
    + intros p Hp. rewrite zn_zupd by (rcar; lia). destruct (Z.eqb_spec p i); [lia|]. apply U. lia.
  - intros (zf & tm) (L1 & L2 & V & _). auto.
Qed.
End Dir.
End X18.
