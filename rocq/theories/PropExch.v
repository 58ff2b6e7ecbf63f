(** C70: making room in the working set.  A bound or constraint that depends on
    the active ones enters in exchange for one of them: the multipliers change so
    that the gradient of the Lagrangian does not, and without a candidate the
    dependence proves infeasibility.  Exact arithmetic. *)
From Verif Require Import Base Types Num Options Indexlist IndexlistProofs Loops RSum LinSpec SafeLib SubjectTo SubjectToProofs SubjectToProofs2
  Flipper PropFlipper Matrices MatLib MatSafe CsLib PropDense PropSparse PropSparse2 LinAlg PropLinAlg QProblemB QPBSafe QPBSafe2 QPBX1 QPBX2 QPBX3 QPBX4 QPBX5 QPBX7 PropRatio QProblem QProblem2
  QPX1 QPX2 QPX3 QPX4 QPX5 QPX6 QPX7 QPX8 QPX9 QPX10 QPX11 QPX12 QPX13 QPX14 QPX15 QPX16 QPX17 QPX18 QPX19 QPX20 QPX21 QProblem3 QProblem4 QProblem5 QPFrame QPFrame2 QPFrame3 QPFrame4 QProblem6 PropHess PropAux PropNull PropSQ PropAuxP.
Local Open Scope R_scope.

(** ** Sums over a selection *)
Lemma lsum_rsum lo hi l f : NoDup l -> (forall i, In i l -> (lo <= i < hi)%Z) -> (forall i, (lo <= i < hi)%Z -> ~ In i l -> f i = 0) -> lsum l f = rsum lo hi f.
Proof.
  intros ND IN OUT. symmetry. rewrite (rsum_ext lo hi f (fun i => lsum l (fun c => if (i =? c)%Z then f c else 0))).
  - unfold rsum. rewrite lsum_swap. apply lsum_ext. intros c Hc. change (rsum lo hi (fun i => if (i =? c)%Z then f c else 0) = f c). rewrite (rsum_delta lo hi c); [now rewrite Z.eqb_refl|now apply IN|]. intros i Hi NE. destruct (Z.eqb_spec i c); [contradiction|reflexivity].
  - intros i Hi. destruct (in_dec Z.eq_dec i l) as [Hl|Hl].
    + rewrite (lsum_delta l i); [now rewrite Z.eqb_refl|exact ND|exact Hl|]. intros c Hc NE. destruct (Z.eqb_spec i c); [congruence|reflexivity].
    + rewrite OUT by auto. symmetry. apply lsum_0. intros c Hc. destruct (Z.eqb_spec i c); [subst; contradiction|reflexivity].
Qed.

Section Exch.
Variables eps zero infty : R.
Notation N := (RNumT eps zero infty).
Notation arr := (list R).
Hypothesis zero_0 : zero = 0.
Hypothesis eps_pos : 0 < eps.
Variable junk : Z -> arr.
Hypothesis J : junk_ok (N := N) junk.
Notation pinv := (pinv eps zero infty).
Notation pframe := (pframe eps zero infty).
Notation Rvalid := (Rvalid eps zero infty).
Notation Rexact := (Rexact eps zero infty).
Notation exch := (exch eps zero infty).
Notation sres := (sres eps zero infty).
Notation tyB := (tyB eps zero infty). Notation tyC := (tyC eps zero infty).
Notation wsB := (wsB eps zero infty). Notation wsC := (wsC eps zero infty).
Notation xB := (xB eps zero infty). Notation yB := (yB eps zero infty).

(** the coefficient of [c], 0 if [c] is not in the list *)
Definition coef (l : list Z) (xi : arr) (c : Z) : R := if in_dec Z.eq_dec c l then xi_of l xi c else 0.
Lemma coef_eq l (xi : arr) c : In c l -> coef l xi c = xi_of l xi c.
Proof. intros H. unfold coef. destruct (in_dec _ _ _); [reflexivity|contradiction]. Qed.
Lemma xi_in l (xi : arr) p : NoDup l -> (0 <= p < zlen l)%Z -> coef l xi (zz l p) = zn 0 xi p.
Proof. intros ND Hp. rewrite coef_eq by (apply zn_In; lia). unfold xi_of. now rewrite spec_pos_unique. Qed.
Lemma xi_out l (xi : arr) c : ~ In c l -> coef l xi c = 0.
Proof. intros H. unfold coef. destruct (in_dec _ _ _); [contradiction|reflexivity]. Qed.
Lemma in_pos l c : In c l -> exists p, (0 <= p < zlen l)%Z /\ c = zz l p.
Proof. intros H. apply spec_pos_nonneg_In in H. pose proof (spec_pos_range l c). exists (spec_pos l c). split; [lia|]. symmetry. now apply spec_pos_zz. Qed.

(** the multipliers of the active constraints or of the fixed variables are changed in proportion to their coefficients *)
Lemma sub_loop l (idx : list Z) (xi y : arr) off c : NoDup l -> (forall p, (0 <= p < zlen l)%Z -> rd idx p = Ok (zz l p)) -> (zlen l <= zlen xi)%Z -> (0 <= off)%Z -> (forall i, In i l -> (0 <= i /\ off + i < zlen y)%Z) ->
  wp (for_up 0 (zlen l) (fun i y => ii <- rd idx i ;; w <- rd y (off + ii) ;; x <- rd xi i ;; wr y (off + ii) (w - c * x)) y) (fun y' : arr => zlen y' = zlen y /\
    forall j, (0 <= j)%Z -> zn 0 y' j = zn 0 y j - c * coef l xi (j - off)).
Proof.
  intros ND RD LX HO RG. apply wp_for_up with (I := fun k (y' : arr) => zlen y' = zlen y /\ (forall p, (0 <= p < k)%Z -> zn 0 y' (off + zz l p) = zn 0 y (off + zz l p) - c * zn 0 xi p) /\
    forall j, (0 <= j)%Z -> (forall p, (0 <= p < k)%Z -> j <> off + zz l p)%Z -> zn 0 y' j = zn 0 y j).
  - apply zlen_nonneg.
  - split; [reflexivity|]. split; [intros; lia|auto].
  - intros k y' Hk (L & V & U). rewrite RD by lia. cbn [bind]. assert (Hi : In (zz l k) l) by (apply zn_In; lia). pose proof (RG _ Hi). rewrite (rd_ok 0) by lia. cbn [bind]. rewrite (rd_ok 0) by lia. cbn [bind]. rewrite wr_ok by lia. cbn [wp].
    rewrite zlen_zupd. split; [exact L|].
    assert (DIF : forall p, (0 <= p < zlen l)%Z -> p <> k -> zz l p <> zz l k) by (intros p Hp NE E; apply NE; apply (NoDup_zz l); auto; lia).
    assert (OLD : zn 0 y' (off + zz l k) = zn 0 y (off + zz l k)) by (apply U; [lia|intros p Hp E; apply (DIF p ltac:(lia) ltac:(lia)); lia]). split.
    + intros p Hp. destruct (Z.eq_dec p k) as [->|NE]; [rewrite zn_zupd_eq by lia; now rewrite OLD|]. assert (Hp' : In (zz l p) l) by (apply zn_In; lia). pose proof (RG _ Hp'). pose proof (DIF p ltac:(lia) NE). rewrite zn_zupd_ne by lia. apply V. lia.
    + intros j Hj NE. pose proof (NE k ltac:(lia)). rewrite zn_zupd_ne by lia. apply U; [exact Hj|]. intros p Hp. apply NE. lia.
  - intros y' (L & V & U). split; [exact L|]. intros j Hj. destruct (in_dec Z.eq_dec (j - off)%Z l) as [Hl|Hl].
    + destruct (in_pos _ _ Hl) as (p & Hp & E). rewrite E, xi_in by auto. replace j with (off + zz l p)%Z by lia. now apply V.
    + rewrite xi_out by exact Hl. rewrite U; [ring|exact Hj|]. intros p Hp E. apply Hl. replace (j - off)%Z with (zz l p) by lia. apply zn_In. lia.
Qed.

(** the collected multipliers *)
Lemma get_loop l (idx : list Z) (y a : arr) off : NoDup l -> (forall p, (0 <= p < zlen l)%Z -> rd idx p = Ok (zz l p)) -> (zlen l <= zlen a)%Z -> (0 <= off)%Z -> (forall i, In i l -> (0 <= i /\ off + i < zlen y)%Z) ->
  wp (for_up 0 (zlen l) (fun i a => ii <- rd idx i ;; w <- rd y (off + ii) ;; wr a i w) a) (fun a' : arr => zlen a' = zlen a /\ forall p, (0 <= p < zlen l)%Z -> zn 0 a' p = zn 0 y (off + zz l p)).
Proof.
  intros ND RD LA HO RG. apply (wp_fill 0 (fun p => zn 0 y (off + zz l p))).
  - pose proof (zlen_nonneg l). lia.
  - intros i b Hi Lb. rewrite RD by lia. cbn [bind]. assert (H : In (zz l i) l) by (apply zn_In; lia). pose proof (RG _ H). rewrite (rd_ok 0) by lia. cbn [bind]. rewrite wr_ok by lia. reflexivity.
  - intros b Lb V _. auto.
Qed.

Lemma ratio_l st l0 l1 (num xi : arr) (yf : Z -> R) e1 e2 t0 : st_wf st l0 l1 -> (zlen l1 <= zlen num)%Z -> zlen xi = zlen l1 -> (forall p, (0 <= p < zlen l1)%Z -> zn 0 num p = yf (zz l1 p)) -> 0 < e2 ->
  let bl i := blocks (zt (st_type st) i) (zs (st_status st) i) (yf i) (coef l1 xi i) e1 e2 in
  exists t bc, performRatioTest (N := N) (zlen l1) (il_number (st_act st)) st num xi e1 e2 t0 = Ok (t, bc) /\ t <= t0 /\ (forall i, In i l1 -> bl i -> t <= yf i / coef l1 xi i) /\
    ((bc = (-1)%Z /\ t = t0) \/ (t < t0 /\ In bc l1 /\ bl bc /\ t = yf bc / coef l1 xi bc)).
Proof.
  intros W Ln Lx V He bl. destruct (range_b _ _ _ W) as (_ & Rg). assert (ND : NoDup l1) by exact (rep_NoDup _ _ (wf_act _ _ _ W)). pose proof (zlen_nonneg l1) as P1.
  assert (RD : forall p, (0 <= p < zlen l1)%Z -> (p < zlen (il_number (st_act st)))%Z /\ zn 0%Z (il_number (st_act st)) p = zz l1 p).
  { intros p Hp. pose proof (rep_rd1 _ _ _ W p Hp) as E. apply rd_inv in E as (E1 & E2). split; [lia|apply E2]. }
  assert (LI : (zlen l1 <= zlen (il_number (st_act st)))%Z) by (destruct (Z.eq_dec (zlen l1) 0) as [E|E]; [rewrite E; apply zlen_nonneg|destruct (RD (zlen l1 - 1)%Z ltac:(lia)); lia]).
  destruct (C33_performRatioTest eps zero infty (st_n st) (zlen l1) (il_number (st_act st)) st l0 l1 num xi e1 e2 t0 W eq_refl ltac:(lia)) as (t & bc & E & (A & B & _) & C); auto; try lia.
  { intros p Hp. destruct (RD p Hp) as (_ & ->). apply Rg, zn_In. lia. }
  assert (BL : forall p, (0 <= p < zlen l1)%Z -> blockp (il_number (st_act st)) st num xi e1 e2 p <-> bl (zz l1 p)).
  { intros p Hp. unfold blockp, bl. destruct (RD p Hp) as (_ & ->). rewrite V, xi_in by auto. reflexivity. }
  exists t, bc. split; [exact E|]. split; [exact A|]. split.
  - intros i Hi Bi. destruct (in_pos _ _ Hi) as (p & Hp & ->). rewrite xi_in by auto. rewrite <- V by exact Hp. apply (B p). split; [exact Hp|]. split; [now apply BL|reflexivity].
  - destruct C as [C|(C & p & Hp & -> & Bp & Et)]; [now left|right]. destruct (RD p Hp) as (_ & ->). split; [exact C|]. split; [apply zn_In; lia|]. split; [now apply BL|]. rewrite xi_in by auto. now rewrite <- V.
Qed.

(** ** Candidates *)
(** Bound ([b = true]) or constraint [i] is a candidate to leave in exchange: it is active, and its
    multiplier would become zero when that of the entering one grows.  [w], [wA]: the coefficients
    of the entering gradient. *)
Definition cand (n m : Z) (s : qp N) (w wA : Z -> R) (b : bool) (i : Z) : Prop := let o := p_opts s in
  if b then (0 <= i < n)%Z /\ is_active (wsB s i) = true /\ blocks (tyB s i) (wsB s i) (yB s i) (w i) (o_epsNum o) (o_epsDen o)
  else (0 <= i < m)%Z /\ is_active (wsC s i) = true /\ blocks (tyC s i) (wsC s i) (yB s (n + i)) (wA i) (o_epsNum o) (o_epsDen o).
Definition leaves_at (n : Z) (s : qp N) (w wA : Z -> R) (b : bool) (i : Z) : R := if b then yB s i / w i else yB s (n + i) / wA i.
(** the multipliers after the exchange: [t] is that of the entering one, whose index in y is [slot] *)
Definition exchanged (n m : Z) (w wA : Z -> R) (slot : Z) (sg t : R) (y y' : Z -> R) : Prop :=
  forall j, (0 <= j < n + m)%Z -> y' j = if (j =? slot)%Z then sg * t else y j - t * (if (j <? n)%Z then w j else wA (j - n)%Z).

Lemma blocks_nz ty v nu de e1 e2 : 0 < e2 -> blocks ty v nu de e1 e2 -> de <> 0.
Proof. intros He (_ & [(_ & A & _)|(_ & A & _)]); lra. Qed.

(** what resolving a dependency comes to: nobody can leave, or the candidate that is first leaves *)
Definition resolved (n m : Z) (Am Hm : Z -> Z -> R) (a : Z -> R) (s : qp N) (slot : Z) (sg : R) (l0 k0 k1 : list Z) (w wA : Z -> R) (r : returnValue) (s' : qp N) : Prop :=
    (r = RET_ENSURELI_FAILED_NOINDEX /\ s' = up_b (set_q_infeasible (N := N) true) s /\ forall b i, cand n m s w wA b i -> o_maxDualJump (p_opts s) <= leaves_at n s w wA b i) \/
    (r = SUCCESSFUL_RETURN /\ exists b q lp lx kx kp, exch n m Am Hm a s s' l0 k0 k1 lp lx kx kp /\ cand n m s w wA b q /\ leaves_at n s w wA b q < o_maxDualJump (p_opts s) /\
      (forall b' i, cand n m s w wA b' i -> leaves_at n s w wA b q <= leaves_at n s w wA b' i) /\
      exchanged n m w wA slot sg (leaves_at n s w wA b q) (yB s) (yB s') /\
      (exists y1, dat (up_b (N := N) (set_q_y (N := N) y1) s) (up_b (N := N) (set_q_y (N := N) y1) s')) /\
      (if b then chgB (N := N) s q ST_INACTIVE s' /\ wsB s' q = ST_INACTIVE else chgC (N := N) s q ST_INACTIVE s' /\ wsC s' q = ST_INACTIVE)).
Lemma resolveLI_full n m Am Hm (s : qp N) l0 l1 k0 k1 number slot v isB (xiB xiC : arr) a x : pinv n m Am s l0 l1 k0 k1 -> hdata eps zero infty n s Hm -> p_noUpdate s = false ->
  Rvalid n s (zlen l0 - zlen k1) -> o_enableDropInfeasibles (p_opts s) = false -> 0 < o_epsDen (p_opts s) -> (0 <= slot < n + m)%Z -> zlen xiB = zlen l1 -> zlen xiC = zlen k1 ->
  range_fit n l0 k1 Am (p_Q s) a x -> (forall i, (0 <= i < zlen k1)%Z -> x (zz k1 i) = zn 0 xiC i) ->
  (forall i, (0 <= i < zlen l1)%Z -> a (zz l1 i) - lsum k1 (fun c => x c * Am c (zz l1 i)) = zn 0 xiB i) ->
  ~ In slot l1 -> ~ In (slot - n)%Z k1 ->
  let w := coef l1 xiB in let wA := coef k1 xiC in
  wp (resolveLI (N := N) junk number slot v isB xiB xiC s) (fun '(r, s') => resolved n m Am Hm a s slot (if is_sts v ST_LOWER then 1 else -1) l0 k0 k1 w wA r s').
Proof.
  intros I HD NU RV ND ED Hs LB LC RF XC XB NSB NSC w wA. unfold resolved. pose proof I as [W F Ly FA TQ]. destruct W as [En Em Wb Wc LQ LR ES LT WA].
  destruct (range_b _ _ _ Wb) as (_ & Rg1). destruct (range_b _ _ _ Wc) as (_ & Rk1). destruct (len_b _ _ _ Wb) as (Ln0 & Ln1).
  change (st_n (p_bounds s)) with (pV s) in *. change (st_n (p_cons s)) with (pC s) in *. rewrite En in *. rewrite Em in *.
  assert (EX : pFX s = zlen l1) by exact (rep_len _ _ (wf_act _ _ _ Wb)). assert (EC : pAC s = zlen k1) by exact (rep_len _ _ (wf_act _ _ _ Wc)).
  assert (ND1 : NoDup l1) by exact (rep_NoDup _ _ (wf_act _ _ _ Wb)). assert (NDk : NoDup k1) by exact (rep_NoDup _ _ (wf_act _ _ _ Wc)).
  destruct TQ as (LE & _). pose proof (zlen_nonneg l1) as P1. pose proof (zlen_nonneg k1) as P2. pose proof (zlen_nonneg l0) as P0.
  assert (M0 : (0 <= m)%Z) by (rewrite <- (pf_lbA _ _ _ _ _ _ F); apply zlen_nonneg). assert (N0 : (0 <= n)%Z) by (rewrite <- (pf_lb _ _ _ _ _ _ F); apply zlen_nonneg).
  assert (LJ : zlen (junk n) = n) by (apply J; lia).
  assert (IN1 : forall i, In i l1 <-> (0 <= i < n)%Z /\ is_active (wsB s i) = true) by (intros i; rewrite (wf_in1 _ _ _ Wb); change (st_n (p_bounds s)) with (pV s); rewrite En; reflexivity).
  assert (INk : forall i, In i k1 <-> (0 <= i < m)%Z /\ is_active (wsC s i) = true) by (intros i; rewrite (wf_in1 _ _ _ Wc); change (st_n (p_cons s)) with (pC s); rewrite Em; reflexivity).
  unfold resolveLI. rewrite EX, EC, En. cbv zeta.
  assert (RC : forall i, (0 <= i < zlen k1)%Z -> rd (p_AC s) i = Ok (zz k1 i)) by (intros i Hi; apply (rep_rd1 _ _ _ Wc); lia).
  assert (RX : forall i, (0 <= i < zlen l1)%Z -> rd (p_FX s) i = Ok (zz l1 i)) by (intros i Hi; apply (rep_rd1 _ _ _ Wb); lia).
  assert (GC : forall i, In i k1 -> (0 <= i /\ n + i < zlen (q_y (p_b s) : arr))%Z) by (intros i Hi; apply Rk1 in Hi; rcar; lia).
  assert (GB : forall i, In i l1 -> (0 <= i /\ 0 + i < zlen (q_y (p_b s) : arr))%Z) by (intros i Hi; apply Rg1 in Hi; rcar; lia).
  apply wp_bind. eapply wp_mono; [apply (get_loop k1 (p_AC s) (q_y (p_b s)) (junk n) n NDk RC ltac:(lia) N0 GC)|]. intros num (Lnum & Vnum). apply wp_bind.
  destruct (ratio_l (p_cons s) k0 k1 num xiC (fun i => yB s (n + i)) (o_epsNum (p_opts s)) (o_epsDen (p_opts s)) (o_maxDualJump (p_opts s)) Wc ltac:(rcar; lia) LC Vnum ED) as (ym & kC & E1 & T1 & MC & KC).
  match goal with |- wp ?m _ => replace m with (Ok (ym, kC)) by (symmetry; exact E1) end. cbn [wp]. apply wp_bind.
  eapply wp_mono; [apply (get_loop l1 (p_FX s) (q_y (p_b s)) num 0 ND1 RX ltac:(rcar; lia) ltac:(lia) GB)|]. intros num' (Lnum' & Vnum'). apply wp_bind.
  destruct (ratio_l (p_bounds s) l0 l1 num' xiB (fun i => yB s i) (o_epsNum (p_opts s)) (o_epsDen (p_opts s)) ym Wb ltac:(rcar; lia) LB Vnum' ED) as (t & kB & E2 & T2 & MB & KB).
  match goal with |- wp ?m _ => replace m with (Ok (t, kB)) by (symmetry; exact E2) end. cbn [wp].
  assert (LEAST : forall b i, cand n m s w wA b i -> t <= leaves_at n s w wA b i).
  { intros [|] i (Hi & Ai & Bi); cbn [leaves_at].
    - apply MB; [apply IN1; auto|exact Bi].
    - eapply Rle_trans; [exact T2|]. apply MC; [apply INk; auto|exact Bi]. }
  destruct ((0 <=? kB)%Z || (0 <=? kC)%Z) eqn:OR.
  2:{ rewrite ND. cbn [wp]. left. split; [reflexivity|]. split; [reflexivity|]. apply orb_false_elim in OR as (O1 & O2). apply Z.leb_gt in O1, O2.
      destruct KB as [(_ & Et)|(_ & HB & _)]; [|apply Rg1 in HB; lia]. destruct KC as [(_ & Ec)|(_ & HC & _)]; [|apply Rk1 in HC; lia]. rewrite <- Ec, <- Et. exact LEAST. }
  apply wp_bind. eapply wp_mono; [apply (sub_loop k1 (p_AC s) xiC (q_y (p_b s)) n t NDk RC ltac:(lia) N0 GC)|]. intros y1 (Ly1 & Vy1). apply wp_bind.
  assert (GB1 : forall i, In i l1 -> (0 <= i /\ 0 + i < zlen y1)%Z) by (intros i Hi; apply GB in Hi; rcar; lia).
  eapply wp_mono; [apply (sub_loop l1 (p_FX s) xiB y1 0 t ND1 RX ltac:(lia) ltac:(lia) GB1)|]. intros y2 (Ly2 & Vy2). apply wp_bind.
  assert (L2 : zlen y2 = (n + m)%Z) by exact (eq_trans Ly2 (eq_trans Ly1 Ly)). rewrite (@wr_ok R) by (rcar; lia). cbn [wp].
  set (y3 := zupd y2 slot (if is_sts v ST_LOWER then t else - t)). assert (L3 : zlen y3 = (n + m)%Z) by (unfold y3; now rewrite zlen_zupd).
  assert (Y2 : forall j, (0 <= j < n + m)%Z -> zn 0 y2 j = yB s j - t * (if (j <? n)%Z then w j else wA (j - n)%Z)).
  { intros j Hj. rewrite Vy2, Vy1, Z.sub_0_r by lia. destruct (Z.ltb_spec j n).
    - rewrite (xi_out k1) by (intros H'; apply Rk1 in H'; lia). unfold w, PropAuxP.yB. ring.
    - rewrite (xi_out l1) by (intros H'; apply Rg1 in H'; lia). unfold wA, PropAuxP.yB. ring. }
  assert (Y3 : exchanged n m w wA slot (if is_sts v ST_LOWER then 1 else -1) t (yB s) (zn 0 y3)).
  { intros j Hj. unfold y3. destruct (Z.eqb_spec j slot) as [->|NE]; [rewrite zn_zupd_eq by (rcar; lia); destruct (is_sts v ST_LOWER); rnum; lra|]. rewrite zn_zupd_ne by (rcar; lia). now apply Y2. }
  set (s1 := up_b (set_q_y (N := N) y3) s).
  assert (I1 : pinv n m Am s1 l0 l1 k0 k1) by (apply pinv_y; auto). assert (FR1 : pframe s s1) by apply pframe_y.
  assert (HD1 : hdata eps zero infty n s1 Hm) by (eapply pframe_hdata; eauto).
  assert (FIN : forall s2 y, pframe s1 s2 -> pframe s (up_b (set_q_y (N := N) y) s2)) by (intros; eapply pframe_trans; [exact FR1|]; eapply pframe_trans; [eassumption|]; apply pframe_y).
  destruct (Z.leb_spec 0 kB) as [PB|PB].
  - destruct KB as [(KB & _)|(TB & Hin & BB & Et)]; [lia|].
    destruct (remB_full eps zero infty zero_0 junk J n m Am Hm s1 l0 l1 k0 k1 kB I1 HD1 eps_pos NU Hin RV) as (s2 & E & I2 & FR2 & Ey & COL & GR & ST & CO).
    pose proof (pc_eq _ _ _ (d_remB (N := N) junk s1 kB s1 (dat_refl s1)) E) as DT. pose proof (pc_eq _ _ _ (c_remB (N := N) junk kB s1) E) as CH. cbn [snd] in DT, CH.
    apply wp_bind. match goal with |- wp ?m _ => replace m with (Ok (SUCCESSFUL_RETURN, s2)) by (symmetry; exact E) end. cbn [wp]. cbn [negb rv_eqb]. rewrite Ey. change (q_y (p_b s1)) with y3. pose proof (Rg1 _ Hin) as Hr.
    apply wp_bind. rewrite (@wr_ok R) by (rcar; lia). cbn [wp]. right. split; [reflexivity|].
    exists true, kB, (l0 ++ [kB]), (spec_remove l1 kB), k0, k1. pose proof (blocks_nz _ _ _ _ _ _ ED BB) as NB.
    assert (EQ : leaves_at n s w wA true kB = t) by (symmetry; exact Et). rewrite EQ.
    split; [|split; [|split; [|split; [|split; [|split; [|split]]]]]].
    + apply (exch_B eps zero infty n m Am Hm s _ l0 l1 k0 k1 kB a x); auto.
      * apply pinv_y; [exact I2|rewrite zlen_zupd; exact L3].
      * destruct (in_pos _ _ Hin) as (p & Hp & Ep). rewrite Ep. rewrite XB by exact Hp. rewrite <- (xi_in l1 xiB p ND1 Hp), <- Ep. exact NB.
    + split; [lia|]. split; [apply IN1; exact Hin|exact BB].
    + lra.
    + exact LEAST.
    + intros j Hj. change (yB (up_b (set_q_y (N := N) (zupd y3 kB (n0 (N := N)))) s2) j) with (zn 0 (zupd y3 kB 0) j). destruct (Z.eq_dec j kB) as [->|NE]; [|rewrite zn_zupd_ne by (rcar; lia); now apply Y3].
      rewrite zn_zupd_eq by (rcar; lia). destruct (Z.eqb_spec kB slot) as [Es|_]; [exfalso; apply NSB; rewrite <- Es; exact Hin|]. destruct (Z.ltb_spec kB n); [|lia]. rewrite Et. unfold w. field. exact NB.
    + exists y3. destruct DT as ((D1 & _ & D3) & D4). exact (conj (conj D1 (conj eq_refl D3)) D4).
    + exact CH.
    + apply (wf_in0 _ _ _ (pw_b _ _ _ _ _ _ _ _ _ _ _ (pi_w _ _ _ _ _ _ _ _ _ _ _ I2))). apply in_or_app. right. left. reflexivity.
  - destruct (Z.leb_spec 0 kC) as [PC|PC]; [|discriminate OR].
    destruct KB as [(_ & Et)|(_ & HB & _)]; [|apply Rg1 in HB; lia]. destruct KC as [(KC & _)|(TC & Hin & BB & Ec)]; [lia|].
    destruct (remC_full eps zero infty zero_0 junk J n m Am Hm s1 l0 l1 k0 k1 kC I1 HD1 eps_pos NU Hin RV) as (s2 & E & I2 & FR2 & Ey & COL & GR & ST & CO).
    pose proof (pc_eq _ _ _ (d_remC (N := N) junk s1 kC s1 (dat_refl s1)) E) as DT. pose proof (pc_eq _ _ _ (c_remC (N := N) junk kC s1) E) as CH. cbn [snd] in DT, CH.
    apply wp_bind. match goal with |- wp ?m _ => replace m with (Ok (SUCCESSFUL_RETURN, s2)) by (symmetry; exact E) end. cbn [wp]. cbn [negb rv_eqb]. rewrite Ey. change (q_y (p_b s1)) with y3. pose proof (Rk1 _ Hin) as Hr.
    apply wp_bind. rewrite (@wr_ok R) by (rcar; lia). cbn [wp]. right. split; [reflexivity|].
    exists false, kC, l0, l1, (k0 ++ [kC]), (spec_remove k1 kC). pose proof (blocks_nz _ _ _ _ _ _ ED BB) as NB.
    assert (EQ : leaves_at n s w wA false kC = t) by (rewrite Et; symmetry; exact Ec). rewrite EQ.
    split; [|split; [|split; [|split; [|split; [|split; [|split]]]]]].
    + apply (exch_C eps zero infty n m Am Hm s _ l0 l1 k0 k1 kC a x); auto.
      * apply pinv_y; [exact I2|rewrite zlen_zupd; exact L3].
      * destruct (in_pos _ _ Hin) as (p & Hp & Ep). rewrite Ep. rewrite XC by exact Hp. rewrite <- (xi_in k1 xiC p NDk Hp), <- Ep. exact NB.
    + split; [lia|]. split; [apply INk; exact Hin|exact BB].
    + lra.
    + exact LEAST.
    + intros j Hj. change (yB (up_b (set_q_y (N := N) (zupd y3 (n + kC) (n0 (N := N)))) s2) j) with (zn 0 (zupd y3 (n + kC) 0) j). destruct (Z.eq_dec j (n + kC)) as [->|NE]; [|rewrite zn_zupd_ne by (rcar; lia); now apply Y3].
      rewrite zn_zupd_eq by (rcar; lia). destruct (Z.eqb_spec (n + kC) slot) as [Es|_]; [exfalso; apply NSC; replace (slot - n)%Z with kC by lia; exact Hin|]. destruct (Z.ltb_spec (n + kC) n); [lia|].
      replace (n + kC - n)%Z with kC by lia. rewrite Et, Ec. unfold wA. field. exact NB.
    + exists y3. destruct DT as ((D1 & _ & D3) & D4). exact (conj (conj D1 (conj eq_refl D3)) D4).
    + exact CH.
    + apply (wf_in0 _ _ _ (pw_c _ _ _ _ _ _ _ _ _ _ _ (pi_w _ _ _ _ _ _ _ _ _ _ _ I2))). apply in_or_app. right. left. reflexivity.
Qed.
(** ** The gradient of the entering one *)
Definition on_active (n m : Z) (s : qp N) (w wA : Z -> R) : Prop :=
  (forall j, (0 <= j < n)%Z -> is_active (wsB s j) = false -> w j = 0) /\ (forall k, (0 <= k < m)%Z -> is_active (wsC s k) = false -> wA k = 0).
Definition combines (n m : Z) (Am : Z -> Z -> R) (a w wA : Z -> R) : Prop := forall j, (0 <= j < n)%Z -> a j = w j + rsum 0 m (fun k => Am k j * wA k).

Lemma fit_combines n m Am (s : qp N) l0 l1 k0 k1 (xiB xiC : arr) a x : pinv n m Am s l0 l1 k0 k1 -> (forall j, (0 <= j < n)%Z -> settled (wsB s j)) -> range_fit n l0 k1 Am (p_Q s) a x -> (forall i, (0 <= i < zlen k1)%Z -> x (zz k1 i) = zn 0 xiC i) ->
  (forall i, (0 <= i < zlen l1)%Z -> a (zz l1 i) - lsum k1 (fun c => x c * Am c (zz l1 i)) = zn 0 xiB i) ->
  (forall p, (0 <= p < zlen l0 - zlen k1)%Z -> comb l0 a (ce n (p_Q s)) p = 0) -> combines n m Am a (coef l1 xiB) (coef k1 xiC).
Proof.
  intros I SB RF XC XB D j Hj. pose proof I as [W F Ly FA TQ]. destruct W as [En Em Wb Wc LQ LR ES LT WA].
  destruct (range_b _ _ _ Wb) as (_ & Rg1). destruct (range_b _ _ _ Wc) as (_ & Rk1). change (st_n (p_bounds s)) with (pV s) in *. change (st_n (p_cons s)) with (pC s) in *. rewrite En in *. rewrite Em in *.
  assert (ND0 : NoDup l0) by exact (rep_NoDup _ _ (wf_ina _ _ _ Wb)). assert (ND1 : NoDup l1) by exact (rep_NoDup _ _ (wf_act _ _ _ Wb)). assert (NDk : NoDup k1) by exact (rep_NoDup _ _ (wf_act _ _ _ Wc)).
  assert (S : rsum 0 m (fun k => Am k j * coef k1 xiC k) = lsum k1 (fun c => x c * Am c j)).
  { rewrite <- (lsum_rsum 0 m k1); [|exact NDk|exact Rk1|intros i Hi Ni; rewrite (xi_out k1) by exact Ni; ring].
    apply lsum_ext. intros c Hc. destruct (in_pos _ _ Hc) as (p & Hp & ->). rewrite (xi_in k1) by auto. rewrite XC by exact Hp. ring. }
  rewrite S. destruct (in_dec Z.eq_dec j l1) as [H1|H1].
  - destruct (in_pos _ _ H1) as (p & Hp & ->). rewrite (xi_in l1) by auto. rewrite <- XB by exact Hp. ring.
  - rewrite (xi_out l1) by exact H1. rewrite (dependent_eq n (p_sizeT s) l0 k1 Am (p_Q s) (p_T s) ND0 TQ a x RF D j); [ring|].
    apply (wf_in0 _ _ _ Wb). change (st_n (p_bounds s)) with (pV s). rewrite En. split; [exact Hj|]. destruct (SB j Hj) as [E|E]; [exact E|]. exfalso. apply H1, (wf_in1 _ _ _ Wb). change (st_n (p_bounds s)) with (pV s). rewrite En. split; [exact Hj|]. change (zs (st_status (p_bounds s)) j) with (wsB s j). destruct E as [E|E]; rewrite E; reflexivity.
Qed.

Lemma ensure_C n m Am Hm (so : qp N) l0 l1 k0 k1 number v : pinv n m Am so l0 l1 k0 k1 -> hdata eps zero infty n so Hm -> 0 < eps -> p_noUpdate so = false ->
  Rvalid n so (zlen l0 - zlen k1) -> licfg eps zero infty n m Hm l0 k1 so -> In number k0 ->
  let sg := if is_sts v ST_LOWER then 1 else -1 in
  wp (addConstraint_ensureLI (N := N) junk number v so) (fun '(r, s') => exists s, sres n m so s /\ (
    (r = SUCCESSFUL_RETURN /\ s' = s /\ exists p, (0 <= p < zlen l0 - zlen k1)%Z /\ comb l0 (Am number) (ce n (p_Q s)) p <> 0) \/
    (r = RET_ENSURELI_FAILED_TQ /\ s' = s) \/
    (exists w wA, on_active n m s w wA /\ (o_epsLITests (p_opts s) = 0 -> plainH (p_b s) = true -> forall p, (0 <= p < zlen l0 - zlen k1)%Z -> comb l0 (Am number) (ce n (p_Q s)) p = 0) /\
       ((forall p, (0 <= p < zlen l0 - zlen k1)%Z -> comb l0 (Am number) (ce n (p_Q s)) p = 0) -> (forall j, (0 <= j < n)%Z -> settled (wsB s j)) -> combines n m Am (fun u => sg * Am number u) w wA) /\
       resolved n m Am Hm (fun u => sg * Am number u) s (n + number) sg l0 k0 k1 w wA r s'))).
Proof.
  intros I HD EP NU RV LI Hin sg0.
  assert (Rn : (0 <= number < m)%Z) by (rewrite <- (pw_m _ _ _ _ _ _ _ _ _ _ _ (pi_w _ _ _ _ _ _ _ _ _ _ _ I)); apply (proj1 (range_b _ _ _ (pw_c _ _ _ _ _ _ _ _ _ _ _ (pi_w _ _ _ _ _ _ _ _ _ _ _ I)))); exact Hin).
  unfold addConstraint_ensureLI. destruct (verdict_C eps zero infty zero_0 junk J n m Am Hm so l0 l1 k0 k1 number I HD EP LI Rn) as (r & s & E & SR & NC & K). rewrite E. cbn [bind]. clear E.
  destruct (sres_same _ _ _ _ _ _ _ SR) as (EQ & ET & EsT & EO & _). rewrite <- EQ, <- EO, <- (sres_plain _ _ _ _ _ _ _ SR) in K.
  assert (SMT : smallT eps zero infty so k1 -> smallT eps zero infty s k1) by (unfold smallT; now rewrite ET, EsT).
  apply (sres_pinv _ _ _ n m Am so s l0 l1 k0 k1 SR) in I. pose proof (sres_frame _ _ _ _ _ _ _ SR) as FS. apply (pframe_hdata _ _ _ _ _ _ _ FS) in HD. rewrite <- (pframe_noUpdate _ _ _ _ _ FS) in NU. apply (sres_valid _ _ _ _ _ _ _ _ SR) in RV.
  destruct LI as (_ & NDr & PL & PD). rewrite <- EO in NDr, PL, PD. assert (K' : r <> RET_INDEXLIST_CORRUPTED -> (r =r? RET_INDEXLIST_CORRUPTED) = false) by (intros X; destruct (r =r? RET_INDEXLIST_CORRUPTED) eqn:Y; [apply rv_eqb_eq in Y; contradiction|reflexivity]). rewrite (K' NC).
  match goal with |- wp ?x (fun '(r, s') => exists s, sres n m so s /\ @?Q r s' s) => eapply wp_mono with (P := fun '(r, s') => Q r s' s); [|intros [r1 s1] C; exists s; split; [exact SR|exact C]] end. cbv beta.
  destruct K as [(-> & IND)|(NI & B)].
  { change (RET_LINEARLY_INDEPENDENT =r? RET_LINEARLY_INDEPENDENT) with true. cbn [wp]. left. auto. }
  assert (K2 : (r =r? RET_LINEARLY_INDEPENDENT) = false) by (destruct (r =r? RET_LINEARLY_INDEPENDENT) eqn:Y; [apply rv_eqb_eq in Y; contradiction|reflexivity]). rewrite K2. clear K' K2 NC NI r.
  assert (B' : o_epsLITests (p_opts s) = 0 -> plainH (p_b s) = true -> ~ smallT eps zero infty s k1 -> forall p, (0 <= p < zlen l0 - zlen k1)%Z -> comb l0 (Am number) (ce n (p_Q s)) p = 0) by (intros E0 P NS; destruct (B E0 P) as [SM|A]; [exfalso; apply NS, SMT, SM|exact A]). clear B.
  pose proof I as [W F Ly (M & EA & OA) TQ]. destruct W as [En Em Wb Wc LQ LR ES LT WA].
  destruct (range_b _ _ _ Wb) as (Rg0 & Rg1). destruct (range_b _ _ _ Wc) as (Rk0 & Rk1). destruct (len_b _ _ _ Wb) as (Ln0 & Ln1).
  change (st_n (p_bounds s)) with (pV s) in *. change (st_n (p_cons s)) with (pC s) in *. rewrite En in *. rewrite Em in *.
  assert (EF : pFR s = zlen l0) by exact (rep_len _ _ (wf_ina _ _ _ Wb)). assert (EX : pFX s = zlen l1) by exact (rep_len _ _ (wf_act _ _ _ Wb)). assert (EC : pAC s = zlen k1) by exact (rep_len _ _ (wf_act _ _ _ Wc)).
  assert (NDk : NoDup k1) by exact (rep_NoDup _ _ (wf_act _ _ _ Wc)). assert (LE : (zlen k1 <= zlen l0)%Z) by apply TQ. pose proof (zlen_nonneg l1) as P1. pose proof (zlen_nonneg k1) as P2.
  assert (N0 : (0 <= n)%Z) by (rewrite <- (pf_lb _ _ _ _ _ _ F); apply zlen_nonneg).
  unfold p_theA. rewrite EA. cbn [bind]. cbv zeta. set (sg := if is_sts v ST_LOWER then n1 (N := N) else nm1 (N := N)).
  assert (SG : sg = 1 \/ sg = -1) by apply (sgn_cases eps zero infty). assert (SG' : sg = n1 (N := N) \/ sg = nm1 (N := N)) by (unfold sg; destruct (is_sts v ST_LOWER); auto).
  rewrite EF, EC, EX, ?En. unfold pZ. rewrite EF, EC.
  assert (LJ : forall z, (0 <= z)%Z -> zlen (junk z) = z) by exact J.
  destruct (af_row _ _ _ _ _ _ _ OA number sg (p_free s) l0 (junk (zlen l0)) (wf_ina _ _ _ Wb) Rg0 Rn ltac:(rewrite LJ; lia) SG') as (row & E1 & L1 & V1).
  rcar. rewrite E1. cbn [bind]. set (a := fun u => sg * Am number u).
  assert (X : exists r xiC, (if (0 <? zlen k1)%Z then
      t <- for_up 0 (zlen k1) (fun i a =>
             a <- wr a i (n0 (N := N)) ;;
             for_up 0 (zlen l0) (fun j a =>
               jj <- rd (p_FR s) j ;; w <- rd a i ;; q <- rd (p_Q s) (jj + n * (zlen l0 - zlen k1 + i)) ;; x <- rd row j ;;
               wr a i (w + q * x)) a) (junk (zlen k1)) ;;
      backsolveT (N := N) s t true (junk (zlen k1))
    else Ok (SUCCESSFUL_RETURN, junk (zlen k1))) = Ok (r, xiC) /\ zlen xiC = zlen k1 /\ (r = SUCCESSFUL_RETURN -> range_fit n l0 k1 Am (p_Q s) a (xi_of k1 xiC) /\ ~ smallT eps zero infty s k1)).
  { destruct (Z.ltb_spec 0 (zlen k1)) as [Pk|Pk].
    2:{ exists SUCCESSFUL_RETURN, (junk (zlen k1)). split; [reflexivity|]. split; [apply LJ; lia|]. intros _. split; [intros p Hp; lia|intros (i & Hi & _); lia]. }
    match goal with |- context [bind ?m _] => destruct (wp_inv m (fun t => zlen t = zlen k1 /\ forall i, (0 <= i < zlen k1)%Z -> zn 0 t i = comb l0 a (ce n (p_Q s)) (zlen l0 - zlen k1 + i))) as (t & Et & Lt & Vt) end.
    { apply wp_for_up with (I := fun i t => zlen t = zlen k1 /\ forall i', (0 <= i' < i)%Z -> zn 0 t i' = comb l0 a (ce n (p_Q s)) (zlen l0 - zlen k1 + i')); auto.
      - split; [apply LJ; lia|intros; lia].
      - intros i t Hi (Lt & Vt). rewrite (@wr_ok R) by lia. cbn [bind].
        apply wp_for_up with (I := fun j t' => zlen t' = zlen k1 /\ (forall i', (0 <= i' < i)%Z -> zn 0 t' i' = zn 0 t i') /\ zn 0 t' i = rsum 0 j (fun q => ce n (p_Q s) (zz l0 q) (zlen l0 - zlen k1 + i) * zn 0 row q)).
        + apply zlen_nonneg.
        + rewrite zlen_zupd. split; [exact Lt|]. split; [intros i' Hi'; now rewrite zn_zupd_ne by lia|]. rewrite zn_zupd_eq by lia. rewrite rsum_empty by lia. rnum. reflexivity.
        + intros j t' Hj (Lt' & A1 & A2). assert (Hv : (0 <= zz l0 j < n)%Z) by (apply Rg0, zn_In; lia). assert (Hx : (0 <= zz l0 j + n * (zlen l0 - zlen k1 + i) < n * n)%Z) by nia.
          unfold p_FR, p_free. rewrite (rep_rd _ _ _ Wb j Hj). cbn [bind]. change (zn 0%Z l0 j) with (zz l0 j). rewrite (rd_ok 0) by lia. cbn [bind]. rcar. rewrite (rd_ok 0) by lia. cbn [bind]. rewrite (rd_ok 0) by (rewrite L1, LJ; lia). cbn [bind].
          rewrite (@wr_ok R) by lia. cbn [wp]. rewrite zlen_zupd. split; [exact Lt'|]. split; [intros i' Hi'; rewrite zn_zupd_ne by lia; now apply A1|]. rewrite zn_zupd_eq by lia. rewrite A2, rsum_last by lia. reflexivity.
        + intros t' (Lt' & A1 & A2). split; [exact Lt'|]. intros i' Hi'. destruct (Z.eq_dec i' i) as [->|]; [|rewrite A1 by lia; apply Vt; lia].
          rewrite A2. unfold comb. rewrite <- (rsum_list l0). apply rsum_ext. intros q Hq. rewrite V1 by lia. unfold a. change (zz l0 q) with (zn 0%Z l0 q). ring. }
    rewrite Et. cbn [bind]. apply (xi_ok eps zero infty n m Am s l0 l1 k0 k1 t (junk (zlen k1)) a I); [lra|apply Z.eq_le_incl; symmetry; exact Lt|apply LJ; lia|exact Vt]. }
  destruct X as (r & xiC & EXi & LC & RF). match goal with |- wp (bind ?m _) _ => replace m with (Ok (r, xiC)) by (symmetry; exact EXi) end. cbn [bind].
  destruct (rv_eqb r SUCCESSFUL_RETURN) eqn:Er; cbn [negb]; [|cbn [wp]; auto]. apply rv_eqb_eq in Er as ->. destruct (RF eq_refl) as (RF1 & NSM). clear RF. rename RF1 into RF.
  destruct (af_row _ _ _ _ _ _ _ OA number sg (p_fixed s) l1 (junk (zlen l1)) (wf_act _ _ _ Wb) Rg1 Rn ltac:(rewrite LJ; lia) SG') as (xB & E2 & L2 & V2).
  rcar. rewrite E2. cbn [bind].
  destruct (af_tidx _ _ _ _ _ _ _ OA (p_active s) k1 (p_fixed s) l1 (nm1 (N := N)) (n1 (N := N)) xiC xB (zlen k1) (zlen l1) (wf_act _ _ _ Wc) Rk1 (wf_act _ _ _ Wb) Rg1) as (xiB & E3 & L3 & V3 & _); auto; try lia.
  { rewrite L2, LJ; lia. }
  rcar. rewrite E3. cbn [bind].
  assert (X1 : zlen xiB = zlen l1) by (rewrite L3, L2; apply LJ; lia).
  assert (X2 : forall i, (0 <= i < zlen k1)%Z -> xi_of k1 xiC (zz k1 i) = zn 0 xiC i) by (intros i Hi; unfold xi_of; rewrite spec_pos_unique by auto; reflexivity).
  assert (X3 : forall i, (0 <= i < zlen l1)%Z -> a (zz l1 i) - lsum k1 (fun c => xi_of k1 xiC c * Am c (zz l1 i)) = zn 0 xiB i).
  { intros i Hi. rewrite (xi_sum) by exact NDk. rewrite V3 by lia. rewrite V2 by lia. unfold a. change (zn 0%Z l1 i) with (zz l1 i). rnum. change (Rlit 1 0) with 1. try change (Rlit (-1) 0) with (-1).
    assert (XX : forall y z : R, y - z = 1 * y + -1 * z) by (intros; ring). apply XX.
  }

  assert (OA1 : on_active n m s (coef l1 xiB) (coef k1 xiC)).
  { split; intros j Hj Na; apply xi_out; intros Hl; [apply (wf_in1 _ _ _ Wb) in Hl as (_ & Hl)|apply (wf_in1 _ _ _ Wc) in Hl as (_ & Hl)]; [unfold PropAuxP.wsB in Na|unfold PropAuxP.wsC in Na]; congruence. }
  eapply wp_mono; [apply (resolveLI_full n m Am Hm s l0 l1 k0 k1 number (n + number) v false xiB xiC a (xi_of k1 xiC)); auto; try lia|].
  { intros H. apply Rg1 in H. lia. }
  { intros H. replace (n + number - n)%Z with number in H by lia. apply (wf_in1 _ _ _ Wc) in H as (_ & H). apply (wf_in0 _ _ _ Wc) in Hin as (_ & Hi0). rewrite Hi0 in H. discriminate H. }
  intros [r s'] RS. right. right. exists (coef l1 xiB), (coef k1 xiC). split; [exact OA1|]. split; [intros E0 P; now apply B'|]. split; [|exact RS].
  intros D SB. apply (fit_combines n m Am s l0 l1 k0 k1 xiB xiC a (xi_of k1 xiC) I SB RF X2 X3). intros p Hp. unfold a. rewrite comb_scal, D by exact Hp. apply Rmult_0_r.
Qed.

Lemma ensure_B n m Am Hm (so : qp N) l0 l1 k0 k1 number v : pinv n m Am so l0 l1 k0 k1 -> hdata eps zero infty n so Hm -> 0 < eps -> p_noUpdate so = false ->
  Rvalid n so (zlen l0 - zlen k1) -> licfg eps zero infty n m Hm l0 k1 so -> In number l0 ->
  let sg := if is_sts v ST_LOWER then 1 else -1 in
  wp (addBound_ensureLI (N := N) junk number v so) (fun '(r, s') => exists s, sres n m so s /\ (
    (r = SUCCESSFUL_RETURN /\ s' = s /\ exists p, (0 <= p < zlen l0 - zlen k1)%Z /\ ce n (p_Q s) number p <> 0) \/
    (r = RET_ENSURELI_FAILED_TQ /\ s' = s) \/
    (exists w wA, on_active n m s w wA /\ (o_epsLITests (p_opts s) = 0 -> plainH (p_b s) = true -> forall p, (0 <= p < zlen l0 - zlen k1)%Z -> ce n (p_Q s) number p = 0) /\
       ((forall p, (0 <= p < zlen l0 - zlen k1)%Z -> ce n (p_Q s) number p = 0) -> (forall j, (0 <= j < n)%Z -> settled (wsB s j)) -> combines n m Am (fun u => sg * delta u number) w wA) /\
       resolved n m Am Hm (fun u => sg * delta u number) s number sg l0 k0 k1 w wA r s'))).
Proof.
  intros I HD EP NU RV LI Hin sg0.
  unfold addBound_ensureLI. destruct (verdict_B eps zero infty zero_0 junk J n m Am Hm so l0 l1 k0 k1 number I HD EP LI Hin) as (r & s & E & SR & NC & K). rewrite E. cbn [bind]. clear E.
  destruct (sres_same _ _ _ _ _ _ _ SR) as (EQ & ET & EsT & EO & _). rewrite <- EQ, <- EO, <- (sres_plain _ _ _ _ _ _ _ SR) in K.
  assert (SMT : smallT eps zero infty so k1 -> smallT eps zero infty s k1) by (unfold smallT; now rewrite ET, EsT).
  apply (sres_pinv _ _ _ n m Am so s l0 l1 k0 k1 SR) in I. pose proof (sres_frame _ _ _ _ _ _ _ SR) as FS. apply (pframe_hdata _ _ _ _ _ _ _ FS) in HD. rewrite <- (pframe_noUpdate _ _ _ _ _ FS) in NU. apply (sres_valid _ _ _ _ _ _ _ _ SR) in RV.
  destruct LI as (_ & NDr & PL & PD). rewrite <- EO in NDr, PL, PD. assert (K' : r <> RET_INDEXLIST_CORRUPTED -> (r =r? RET_INDEXLIST_CORRUPTED) = false) by (intros X; destruct (r =r? RET_INDEXLIST_CORRUPTED) eqn:Y; [apply rv_eqb_eq in Y; contradiction|reflexivity]). rewrite (K' NC).
  match goal with |- wp ?x (fun '(r, s') => exists s, sres n m so s /\ @?Q r s' s) => eapply wp_mono with (P := fun '(r, s') => Q r s' s); [|intros [r1 s1] C; exists s; split; [exact SR|exact C]] end. cbv beta.
  destruct K as [(-> & IND)|(NI & B)].
  { change (RET_LINEARLY_INDEPENDENT =r? RET_LINEARLY_INDEPENDENT) with true. cbn [wp]. left. auto. }
  assert (K2 : (r =r? RET_LINEARLY_INDEPENDENT) = false) by (destruct (r =r? RET_LINEARLY_INDEPENDENT) eqn:Y; [apply rv_eqb_eq in Y; contradiction|reflexivity]). rewrite K2. clear K' K2 NC NI r.
  assert (B' : o_epsLITests (p_opts s) = 0 -> plainH (p_b s) = true -> ~ smallT eps zero infty s k1 -> forall p, (0 <= p < zlen l0 - zlen k1)%Z -> ce n (p_Q s) number p = 0) by (intros E0 P NS; destruct (B E0 P) as [SM|A]; [exfalso; apply NS, SMT, SM|exact A]). clear B.
  pose proof I as [W F Ly (M & EA & OA) TQ]. destruct W as [En Em Wb Wc LQ LR ES LT WA].
  destruct (range_b _ _ _ Wb) as (Rg0 & Rg1). destruct (range_b _ _ _ Wc) as (Rk0 & Rk1). destruct (len_b _ _ _ Wb) as (Ln0 & Ln1).
  change (st_n (p_bounds s)) with (pV s) in *. change (st_n (p_cons s)) with (pC s) in *. rewrite En in *. rewrite Em in *.
  assert (EF : pFR s = zlen l0) by exact (rep_len _ _ (wf_ina _ _ _ Wb)). assert (EX : pFX s = zlen l1) by exact (rep_len _ _ (wf_act _ _ _ Wb)). assert (EC : pAC s = zlen k1) by exact (rep_len _ _ (wf_act _ _ _ Wc)).
  assert (ND : NoDup l0) by exact (rep_NoDup _ _ (wf_ina _ _ _ Wb)).
  assert (NDk : NoDup k1) by exact (rep_NoDup _ _ (wf_act _ _ _ Wc)). pose proof (Rg0 _ Hin) as Rn. assert (LE : (zlen k1 <= zlen l0)%Z) by apply TQ. pose proof (zlen_nonneg l1) as P1. pose proof (zlen_nonneg k1) as P2.
  assert (M0 : (0 <= m)%Z) by (rewrite <- (pf_lbA _ _ _ _ _ _ F); apply zlen_nonneg).
  set (sg := if is_sts v ST_LOWER then n1 (N := N) else nm1 (N := N)). assert (SG : sg = 1 \/ sg = -1) by apply (sgn_cases eps zero infty).
  rewrite EC, EX, ?En. unfold pZ. rewrite EF, EC. assert (LJ : forall z, (0 <= z)%Z -> zlen (junk z) = z) by exact J. set (a := fun u => sg * delta u number).
  assert (X : exists r xiC, (if (0 <? zlen k1)%Z then
      t <- for_up 0 (zlen k1) (fun i a =>
             q <- rd (p_Q s) (number + n * (zlen l0 - zlen k1 + i)) ;; wr a i (if is_sts v ST_LOWER then q else - q)) (junk (zlen k1)) ;;
      backsolveT (N := N) s t true (junk (zlen k1))
    else Ok (SUCCESSFUL_RETURN, junk (zlen k1))) = Ok (r, xiC) /\ zlen xiC = zlen k1 /\ (r = SUCCESSFUL_RETURN -> range_fit n l0 k1 Am (p_Q s) a (xi_of k1 xiC) /\ ~ smallT eps zero infty s k1)).
  { destruct (Z.ltb_spec 0 (zlen k1)) as [Pk|Pk].
    2:{ exists SUCCESSFUL_RETURN, (junk (zlen k1)). split; [reflexivity|]. split; [apply LJ; lia|]. intros _. split; [intros p Hp; lia|intros (i & Hi & _); lia]. }
    match goal with |- context [bind ?m _] => destruct (wp_inv m (fun t => zlen t = zlen k1 /\ forall i, (0 <= i < zlen k1)%Z -> zn 0 t i = comb l0 a (ce n (p_Q s)) (zlen l0 - zlen k1 + i))) as (t & Et & Lt & Vt) end.
    { apply (wp_fill 0 (fun i => sg * ce n (p_Q s) number (zlen l0 - zlen k1 + i))); [rewrite LJ; lia| |].
      - intros i t Hi Lt. assert (Hx : (0 <= number + n * (zlen l0 - zlen k1 + i) < n * n)%Z) by nia. rcar. rewrite (rd_ok 0) by lia. cbn [bind]. rewrite LJ in Lt by lia. rewrite (@wr_ok R) by lia. f_equal. f_equal.
        change (zn 0 (p_Q s) (number + n * (zlen l0 - zlen k1 + i))) with (ce n (p_Q s) number (zlen l0 - zlen k1 + i)). unfold sg. destruct (is_sts v ST_LOWER); rnum; ring.
      - intros t Lt Vt _. rewrite LJ in Lt by lia. split; [exact Lt|]. intros i Hi. rewrite Vt by lia. unfold a. rewrite comb_scal, comb_delta by auto. reflexivity. }
    rewrite Et. cbn [bind]. apply (xi_ok eps zero infty n m Am s l0 l1 k0 k1 t (junk (zlen k1)) a I); [lra|apply Z.eq_le_incl; symmetry; exact Lt|apply LJ; lia|exact Vt]. }
  destruct X as (r & xiC & EXi & LC & RF). match goal with |- wp (bind ?m _) _ => replace m with (Ok (r, xiC)) by (symmetry; exact EXi) end. cbn [bind].
  destruct (rv_eqb r SUCCESSFUL_RETURN) eqn:Er; cbn [negb]; [|cbn [wp]; auto]. apply rv_eqb_eq in Er as ->. destruct (RF eq_refl) as (RF1 & NSM). clear RF. rename RF1 into RF.
  unfold p_theA. rewrite EA. cbn [bind].
  destruct (af_tidx _ _ _ _ _ _ _ OA (p_active s) k1 (p_fixed s) l1 (nm1 (N := N)) (n0 (N := N)) xiC (junk (zlen l1)) (zlen k1) (zlen l1) (wf_act _ _ _ Wc) Rk1 (wf_act _ _ _ Wb) Rg1) as (xiB & E3 & L3 & V3 & _); auto; try lia.
  { rcar. lia. }
  { pose proof (LJ (zlen l1) P1) as LL. rcar. lia. }
  rcar. rewrite E3. cbn [bind].
  assert (X1 : zlen xiB = zlen l1) by (rewrite L3; apply LJ; lia).
  assert (X2 : forall i, (0 <= i < zlen k1)%Z -> xi_of k1 xiC (zz k1 i) = zn 0 xiC i) by (intros i Hi; unfold xi_of; rewrite spec_pos_unique by auto; reflexivity).
  assert (X3 : forall i, (0 <= i < zlen l1)%Z -> a (zz l1 i) - lsum k1 (fun c => xi_of k1 xiC c * Am c (zz l1 i)) = zn 0 xiB i).
  { intros i Hi. rewrite (xi_sum) by exact NDk. rewrite V3 by lia. unfold a. change (zn 0%Z l1 i) with (zz l1 i).
    assert (NE : zz l1 i <> number). { intros H. assert (Hl : In (zz l1 i) l1) by (apply zn_In; lia). rewrite H in Hl. apply (wf_in1 _ _ _ Wb) in Hl as (_ & Hl). apply (wf_in0 _ _ _ Wb) in Hin as (_ & Hi0). rewrite Hi0 in Hl. discriminate Hl. }
    unfold delta. destruct (Z.eqb_spec (zz l1 i) number); [contradiction|]. rnum. assert (XX : forall c y z : R, c * 0 - z = 0 * y + -1 * z) by (intros; ring). apply XX.
  }

  assert (OA1 : on_active n m s (coef l1 xiB) (coef k1 xiC)).
  { split; intros j Hj Na; apply xi_out; intros Hl; [apply (wf_in1 _ _ _ Wb) in Hl as (_ & Hl)|apply (wf_in1 _ _ _ Wc) in Hl as (_ & Hl)]; [unfold PropAuxP.wsB in Na|unfold PropAuxP.wsC in Na]; congruence. }
  eapply wp_mono; [apply (resolveLI_full n m Am Hm s l0 l1 k0 k1 number number v true xiB xiC a (xi_of k1 xiC)); auto; try lia|].
  { intros H. apply (wf_in1 _ _ _ Wb) in H as (_ & H). apply (wf_in0 _ _ _ Wb) in Hin as (_ & Hi0). rewrite Hi0 in H. discriminate H. }
  { intros H. apply Rk1 in H. lia. }
  intros [r s'] RS. right. right. exists (coef l1 xiB), (coef k1 xiC). split; [exact OA1|]. split; [intros E0 P; now apply B'|]. split; [|exact RS].
  intros D SB. apply (fit_combines n m Am s l0 l1 k0 k1 xiB xiC a (xi_of k1 xiC) I SB RF X2 X3). intros p Hp. unfold a. rewrite comb_scal, comb_delta by auto. rewrite D by exact Hp. apply Rmult_0_r.
Qed.
End Exch.
