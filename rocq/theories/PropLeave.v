(** C72: a bound or constraint leaves the working set of the homotopy (no flipping, no test for zero
    curvature, as set by setToMPC). *)
From Verif Require Import Base Types Num Options Indexlist IndexlistProofs Loops RSum LinSpec SafeLib SubjectTo SubjectToProofs SubjectToProofs2
  Flipper PropFlipper Matrices MatLib MatSafe CsLib PropDense PropSparse PropSparse2 LinAlg PropLinAlg QProblemB QPBSafe QPBSafe2 QPBEx QPBX1 QPBX2 QPBX3 QPBX4 QPBX5 QPBX7 QPBX8 QPBX11 PropHess PropAux PropRatio
  QProblem QProblem2 QProblem3 QProblem4 QProblem5 QPFrame PropNull QProblem6 QPFrame2 QPFrame3 QPFrame4 PropSQ PropAuxP QPX1 QPX2 QPX3 QPX4 QPX5 QPX6 QPX7 QPX8 QPX9 QPX10 QPX11 QPX12 QPX14 QPX15 QPX16 QPX18 QPX19 QPX20 QPX21 QPX13 QPX17 PropTQ PropTQ2 PropStepP PropStepQ PropIter PropExch PropEnter.
Local Open Scope R_scope.

Section Leave.
Variables eps zero infty : R.
Hypothesis zero_0 : zero = 0.
Hypothesis eps_pos : 0 < eps.
Notation N := (RNumT eps zero infty).
Notation arr := (list R).
Variable junk : Z -> arr.
Hypothesis J : junk_ok (N := N) junk.
Notation pinv := (pinv eps zero infty).
Notation pframe := (pframe eps zero infty).
Notation Rvalid := (Rvalid eps zero infty).
Notation Rexact := (Rexact eps zero infty).
Notation exch := (exch eps zero infty).
Notation sres := (sres eps zero infty).
Notation tyB := (tyB eps zero infty). Notation tyC := (tyC eps zero infty).
Notation wsB := (wsB eps zero infty). Notation wsC := (wsC eps zero infty).
Notation xB := (xB eps zero infty). Notation yB := (yB eps zero infty).
Notation lB := (lB eps zero infty). Notation uB := (uB eps zero infty).
Notation lC := (lC eps zero infty). Notation uC := (uC eps zero infty).
Notation cand := (cand eps zero infty). Notation leaves_at := (leaves_at eps zero infty).
Notation on_active := (on_active eps zero infty).
Notation resolved := (resolved eps zero infty).

Notation ws := (ws eps zero infty). Notation kept := (kept eps zero infty). Notation statuses := (statuses eps zero infty).
Notation in_order := (PropIter.in_order eps zero infty). Notation steady := (steady eps zero infty).

(** ** What is meant *)
(** a direction along which all active ones but [(b0, i0)] stay where they are *)
Definition released (n m : Z) (Am : Z -> Z -> R) (s : qp N) (b0 : bool) (i0 : Z) (v : Z -> R) : Prop :=
  (exists j, (0 <= j < n)%Z /\ v j <> 0) /\
  forall b i, in_range n m b i -> is_on (ws s b i) -> is_at b0 i0 b i = false -> rsum 0 n (fun j => row Am b i j * v j) = 0.
(** the curvature is positive in these directions *)
Definition convex_without (n m : Z) (Am Hm : Z -> Z -> R) (s : qp N) (b0 : bool) (i0 : Z) : Prop := forall v, released n m Am s b0 i0 v -> 0 < quad n Hm v.
(** it became inactive, its multiplier zero, and nothing else changed *)
Definition left_out (n m : Z) (s s' : qp N) (b0 : bool) (i0 : Z) : Prop :=
  statuses s s' (fun b i => if is_at b0 i0 b i then ST_INACTIVE else ws s b i) /\
  forall j, (0 <= j < n + m)%Z -> yB s' j = if (j =? posn n b0 i0)%Z then 0 else yB s j.

Lemma curv_dir n sT l k Am Hm (Q T : arr) nz rho : NoDup l -> (forall v, In v l -> (0 <= v < n)%Z) -> tqf n sT l k Am Q T -> (nz + 1 = zlen l - zlen k)%Z -> (0 <= nz)%Z -> curvature nz (zhz l Hm (ce n Q)) rho ->
  exists v, (exists j, (0 <= j < n)%Z /\ v j <> 0) /\ (forall j, ~ In j l -> v j = 0) /\ (forall c, In c k -> rsum 0 n (fun j => Am c j * v j) = 0) /\ quad n Hm v = rho.
Proof using.
  intros ND RG TQ En Nz ((x & X1 & <-) & _). set (w := fun u => rsum 0 (nz + 1) (fun q => ce n Q u q * x q)).
  set (v := fun u => if in_dec Z.eq_dec u l then w u else 0).
  assert (VI : forall u, In u l -> v u = w u) by (intros u Hu; unfold v; destruct (in_dec _ _ _); [reflexivity|contradiction]).
  assert (VO : forall u, ~ In u l -> v u = 0) by (intros u Hu; unfold v; destruct (in_dec _ _ _); [contradiction|reflexivity]).
  assert (S : forall b, rsum 0 n (fun j => b j * v j) = lsum l (fun u => b u * w u)).
  { intros b. rewrite <- (lsum_rsum 0 n l); [|exact ND|exact RG|intros i Hi Ni; rewrite VO by exact Ni; ring]. apply lsum_ext. intros u Hu. now rewrite VI. }
  pose proof TQ as (LE & (O & _) & _). pose proof (zlen_nonneg k) as Zk.
  exists v. split; [|split; [exact VO|split]].
  - destruct (all_zero_dec (zlen l) (fun i => w (zz l i))) as [(i & Hi & Nu)|Z0].
    + exists (zz l i). assert (In (zz l i) l) by (apply (zn_In 0%Z), Hi). split; [now apply RG|]. rewrite VI by assumption. exact Nu.
    + exfalso. assert (X0 : lsum l (fun u => ce n Q u nz * w u) = x nz).
      { transitivity (lsum l (fun u => rsum 0 (nz + 1) (fun q => ce n Q u nz * ce n Q u q * x q))).
        { apply lsum_ext. intros u _. unfold w. rewrite <- rsum_scal. apply rsum_ext. intros q _. ring. }
        unfold rsum. rewrite lsum_swap. rewrite (lsum_delta _ nz); [| apply NoDup_zseq|apply In_zseq; lia|].
        - rewrite lsum_scal_r, O by lia. rewrite delta_refl. ring.
        - intros q Hq Ne. apply In_zseq in Hq. rewrite lsum_scal_r, O by lia. unfold delta. destruct (Z.eqb_spec nz q); [congruence|ring]. }
      rewrite X1 in X0. rewrite (lsum_0 l) in X0; [lra|]. intros u Hu. destruct (In_zn 0%Z l u Hu) as (i & Hi & <-). rewrite Z0 by auto. ring.
  - intros c Hc. rewrite S. assert (K : inkernel l k Am w).
    { apply (kernel_span n sT l k Am Q T ND TQ). exists x. intros u Hu. unfold w. rewrite En. apply rsum_ext. intros; ring. }
    exact (K c Hc).
  - rewrite zhz_quad. unfold quad. etransitivity; [apply rsum_ext; intros i Hi; exact (S (fun j => v i * Hm i j))|]. cbv beta.
    rewrite (rsum_ext 0 n _ (fun i => lsum l (fun u => Hm i u * w u) * v i)) by (intros i Hi; rewrite <- lsum_scal_r; apply lsum_ext; intros; ring).
    rewrite (S (fun i => lsum l (fun u => Hm i u * w u))). apply lsum_ext. intros u Hu. rewrite <- lsum_scal_r. apply lsum_ext. intros q Hq. fold (w u). fold (w q). ring.
Qed.

Lemma set_in_order n m Am Hm (s : qp N) y : zlen y = (n + m)%Z -> in_order n m Am Hm s -> in_order n m Am Hm (up_b (N := N) (set_q_y (N := N) y) s).
Proof using.
  intros L (l0 & l1 & k0 & k1 & I & HD & CW & RX). exists l0, l1, k0, k1. split; [|split; [exact HD|split; [exact CW|exact RX]]].
  destruct I as [W F Y A T]. constructor; [destruct W; constructor; assumption|destruct F; constructor; assumption|exact L|exact A|exact T].
Qed.

(** ** A constraint *)
Lemma leave_C n m Am Hm (s : qp N) i : in_order n m Am Hm s -> p_noUpdate s = false -> o_enableFlippingBounds (p_opts s) = false -> (0 <= i < m)%Z -> is_on (wsC s i) ->
  wp (p_removeConstraint (N := N) junk i true true false s) (fun '(r, s') =>
    (r = SUCCESSFUL_RETURN /\ in_order n m Am Hm s' /\ kept s s' /\ p_opts s' = p_opts s /\ q_y (p_b s') = q_y (p_b s) /\ q_status (p_b s') = q_status (p_b s) /\
       statuses s s' (fun b j => if is_at false i b j then ST_INACTIVE else ws s b j)) \/
    (r <> SUCCESSFUL_RETURN /\ plainH (p_b s) = true /\ ~ convex_without n m Am Hm s false i)).
Proof using zero_0 eps_pos J.
  intros (l0 & l1 & k0 & k1 & I & HD & CW & RX) NU FO Hi ON. pose proof I as [W F Ly FA TQ]. pose proof (pw_b _ _ _ _ _ _ _ _ _ _ _ W) as Wb. pose proof (pw_c _ _ _ _ _ _ _ _ _ _ _ W) as Wc.
  destruct (br_dims eps zero infty n m Am s l0 l1 k0 k1 I) as (En & Em & EF & EC & EX & ND). pose proof (Rexact_valid _ _ _ _ _ _ _ _ RX) as RV.
  assert (AC : is_active (zs (st_status (p_cons s)) i) = true) by (unfold PropAuxP.wsC in ON; destruct ON as [E|E]; rewrite E; reflexivity).
  assert (Hr : (0 <= i < st_n (p_cons s))%Z) by (change (st_n (p_cons s)) with (pC s); lia).
  assert (Hin : In i k1) by (apply (wf_in1 _ _ _ Wc); auto).
  unfold p_removeConstraint, removeConstraint_check. rewrite NU.
  assert (P0 : (0 <= spec_pos k1 i)%Z) by now apply spec_pos_nonneg_In.
  rewrite (getIndex_spec _ k1) by (solve [exact (wf_act _ _ _ Wc)|exists i; split; [exact Hin|lia]]). cbn [bind].
  rewrite (getStatus_ok _ _ _ _ Wc Hr). cbn [bind].
  assert (NI : is_sts (zs (st_status (p_cons s)) i) ST_INACTIVE = false) by (destruct (zs (st_status (p_cons s)) i); try reflexivity; discriminate AC). rewrite NI.
  pose proof (spec_pos_range k1 i) as SR. rewrite EC. destruct (Z.ltb_spec (spec_pos k1 i) 0); [lia|]. destruct (Z.leb_spec (zlen k1) (spec_pos k1 i)); [lia|]. cbn [orb bind].
  change (negb (SUCCESSFUL_RETURN =r? SUCCESSFUL_RETURN)) with false. cbv iota.
  eapply wp_mono; [apply (removeConstraint_update_ok eps zero infty zero_0 junk J n m Am Hm s l0 l1 k0 k1 i true true W F Hin TQ (hdata_upd eps zero infty n s Hm _ HD RV true))|].
  intros [r s'] (T & Q & Ra & f & rho & TQ' & COL & CV & K). rewrite FO in K. cbn [andb] in K, CV. pose proof (spec_remove_len k1 i Hin) as Ls.
  destruct (range_b _ _ _ Wb) as (Rg0 & _). change (st_n (p_bounds s)) with (pV s) in Rg0. rewrite En in Rg0.
  pose proof TQ as (LE & _). assert (Nz : (0 <= zlen l0 - zlen k1)%Z) by lia.
  assert (DIR : plainH (p_b s) = true -> rho <= 0 -> ~ convex_without n m Am Hm s false i).
  { intros P Le CX. destruct (RX P) as (FC & _). destruct (curv_dir n (p_sizeT s) l0 (spec_remove k1 i) Am Hm Q T (zlen l0 - zlen k1) rho ND Rg0 TQ' ltac:(lia) Nz (CV P FC)) as (v & NZ & VO & VK & EQ).
    assert (0 < quad n Hm v); [|lra]. apply CX. split; [exact NZ|]. intros [|] j Hj Oj NA; unfold in_range in Hj.
    - cbn [row]. rewrite (rsum_delta 0 n j); [|exact Hj|intros q Hq NE; destruct (Z.eqb_spec q j); [contradiction|ring]]. rewrite VO; [ring|]. intros B. apply (wf_in0 _ _ _ Wb) in B as (_ & B). cbn [PropEnter.ws] in Oj. unfold PropAuxP.wsB in Oj. rewrite B in Oj. destruct Oj; discriminate.
    - cbn [row]. apply VK. apply spec_remove_In; [exact (rep_NoDup _ _ (wf_act _ _ _ Wc))|]. split; [|intros ->; unfold is_at in NA; rewrite Z.eqb_refl in NA; discriminate NA].
      apply (wf_in1 _ _ _ Wc). change (st_n (p_cons s)) with (pC s). rewrite Em. split; [exact Hj|]. cbn [PropEnter.ws] in Oj. unfold PropAuxP.wsC in Oj. destruct Oj as [E|E]; rewrite E; reflexivity. }
  destruct K as [(c & -> & ES & SM & ST & W' & F' & R0 & R1 & FL & NF & R2 & R3)|[(U & Fl & _)|(U & _ & _ & Le & ->)]]; [|discriminate Fl|right; split; [discriminate|split; [exact U|now apply DIR]]].
  left. split; [reflexivity|].
  assert (FR : pframe s s') by (rewrite ES; unfold QPX16.pframe; cbn; repeat (split; [reflexivity|]); now left). assert (PH : plainH (p_b s') = plainH (p_b s)) by now apply pframe_plain.
  assert (E2 : q_R (p_b s') = Ra) by (rewrite ES; reflexivity). assert (E3 : p_Q s' = Q) by (rewrite ES; reflexivity).
  assert (EQ : (zlen l0 - zlen (spec_remove k1 i) = zlen l0 - zlen k1 + 1)%Z) by lia.
  split; [|split; [|split; [apply FR|split; [rewrite ES; reflexivity|split; [apply FR|]]]]].
  - exists l0, l1, (k0 ++ [i]), (spec_remove k1 i). split; [constructor; [exact W'|exact F'|rewrite ES; exact Ly|rewrite ES; exact FA|rewrite ES; exact TQ']|].
    split; [exact (pframe_hdata _ _ _ _ _ _ _ FR HD)|]. split; [exact (pframe_cwf _ _ _ _ _ _ _ FR CW)|]. intros P. rewrite PH in P. rewrite E2, E3, EQ. destruct (RX P) as (FC & _). apply R1; auto.
    destruct (Rlt_le_dec 0 rho) as [|Le]; [assumption|]. destruct (NF P eq_refl Le) as (Bad & _). discriminate Bad.
  - rewrite ES. destruct SM as (_ & SM & _). repeat split. exact SM. cbn. rewrite ES in W'. pose proof (pw_m _ _ _ _ _ _ _ _ _ _ _ W') as X. rewrite X. symmetry. exact Em.
  - intros [|] j Hj; unfold is_at; cbn [Bool.eqb andb PropEnter.ws]; [unfold PropAuxP.wsB; now rewrite ES|]. unfold PropAuxP.wsC. replace (p_cons s') with c by (rewrite ES; reflexivity). rewrite ST. unfold zs.
    assert (Li : (i < zlen (st_status (p_cons s)))%Z) by (pose proof (wf_stat _ _ _ Wc); lia).
    destruct (Z.eqb_spec j i) as [->|NE]; [apply zn_zupd_eq; lia|apply zn_zupd_ne; lia].
Qed.

(** ** A bound *)
Lemma leave_B n m Am Hm (s : qp N) i : in_order n m Am Hm s -> p_noUpdate s = false -> o_enableFlippingBounds (p_opts s) = false -> (0 <= i < n)%Z -> is_on (wsB s i) ->
  wp (p_removeBound (N := N) junk i true true false s) (fun '(r, s') =>
    (r = SUCCESSFUL_RETURN /\ in_order n m Am Hm s' /\ kept s s' /\ p_opts s' = p_opts s /\ q_y (p_b s') = q_y (p_b s) /\ q_status (p_b s') = q_status (p_b s) /\
       statuses s s' (fun b j => if is_at true i b j then ST_INACTIVE else ws s b j)) \/
    (r <> SUCCESSFUL_RETURN /\ plainH (p_b s) = true /\ ~ convex_without n m Am Hm s true i)).
Proof using zero_0 eps_pos J.
  intros (l0 & l1 & k0 & k1 & I & HD & CW & RX) NU FO Hi ON. pose proof I as [W F Ly FA TQ]. pose proof (pw_b _ _ _ _ _ _ _ _ _ _ _ W) as Wb. pose proof (pw_c _ _ _ _ _ _ _ _ _ _ _ W) as Wc.
  destruct (br_dims eps zero infty n m Am s l0 l1 k0 k1 I) as (En & Em & EF & EC & EX & ND). pose proof (Rexact_valid _ _ _ _ _ _ _ _ RX) as RV.
  assert (AC : is_active (zs (st_status (p_bounds s)) i) = true) by (unfold PropAuxP.wsB in ON; destruct ON as [E|E]; rewrite E; reflexivity).
  assert (Hr : (0 <= i < st_n (p_bounds s))%Z) by (change (st_n (p_bounds s)) with (pV s); lia).
  assert (Hin : In i l1) by (apply (wf_in1 _ _ _ Wb); auto).
  unfold p_removeBound, removeBound_check. rewrite (getStatus_ok _ _ _ _ Wb Hr). cbn [bind].
  assert (NI : is_sts (zs (st_status (p_bounds s)) i) ST_INACTIVE = false) by (destruct (zs (st_status (p_bounds s)) i); try reflexivity; discriminate AC). rewrite NI.
  rewrite NU. cbn [bind]. change (negb (SUCCESSFUL_RETURN =r? SUCCESSFUL_RETURN)) with false. cbv iota.
  eapply wp_mono; [apply (removeBound_update_ok eps zero infty zero_0 junk J n m Am Hm s l0 l1 k0 k1 i true true W F Hin TQ (hdata_upd eps zero infty n s Hm _ HD RV true))|].
  intros [r s'] (T & Q & Ra & f & rho & TQ' & COL & CV & K). rewrite FO in K. cbn [andb] in K, CV.
  assert (EL : zlen (l0 ++ [i]) = (zlen l0 + 1)%Z) by (rewrite zlen_app; reflexivity).
  destruct (range_b _ _ _ Wb) as (Rg0 & _). change (st_n (p_bounds s)) with (pV s) in Rg0. rewrite En in Rg0.
  assert (Rg : forall v, In v (l0 ++ [i]) -> (0 <= v < n)%Z) by (intros v Hv; apply in_app_or in Hv as [Hv|[<-|[]]]; auto).
  assert (NDi : NoDup (l0 ++ [i])).
  { apply (Permutation_NoDup (l := i :: l0)); [apply Permutation_cons_append|]. constructor; [|exact ND]. intros B. apply (wf_in0 _ _ _ Wb) in B as (_ & B). rewrite B in AC. discriminate AC. }
  pose proof TQ as (LE & _). assert (Nz : (0 <= zlen l0 - zlen k1)%Z) by lia.
  assert (DIR : plainH (p_b s) = true -> rho <= 0 -> ~ convex_without n m Am Hm s true i).
  { intros P Le CX. destruct (RX P) as (FC & _). destruct (curv_dir n (p_sizeT s) (l0 ++ [i]) k1 Am Hm Q T (zlen l0 - zlen k1) rho NDi Rg TQ' ltac:(lia) Nz (CV P FC)) as (v & NZ & VO & VK & EQ).
    assert (0 < quad n Hm v); [|lra]. apply CX. split; [exact NZ|]. intros [|] j Hj Oj NA; unfold in_range in Hj.
    - cbn [row]. rewrite (rsum_delta 0 n j); [|exact Hj|intros q Hq NE; destruct (Z.eqb_spec q j); [contradiction|ring]]. rewrite VO; [ring|]. intros B. apply in_app_or in B as [B|[B|[]]].
      + apply (wf_in0 _ _ _ Wb) in B as (_ & B). cbn [PropEnter.ws] in Oj. unfold PropAuxP.wsB in Oj. rewrite B in Oj. destruct Oj; discriminate.
      + subst j. unfold is_at in NA. rewrite Z.eqb_refl in NA. discriminate NA.
    - cbn [row]. apply VK. apply (wf_in1 _ _ _ Wc). change (st_n (p_cons s)) with (pC s). rewrite Em. split; [exact Hj|]. cbn [PropEnter.ws] in Oj. unfold PropAuxP.wsC in Oj. destruct Oj as [E|E]; rewrite E; reflexivity. }
  destruct K as [(c & -> & ES & SM & ST & W' & F' & R0 & R1 & FL & NF & R2 & R3)|[(U & Fl & _)|(U & _ & _ & Le & ->)]]; [|discriminate Fl|right; split; [discriminate|split; [exact U|now apply DIR]]].
  left. split; [reflexivity|].
  assert (FR : pframe s s') by (rewrite ES; unfold QPX16.pframe; cbn; repeat (split; [reflexivity|]); now left). assert (PH : plainH (p_b s') = plainH (p_b s)) by now apply pframe_plain.
  assert (E2 : q_R (p_b s') = Ra) by (rewrite ES; reflexivity). assert (E3 : p_Q s' = Q) by (rewrite ES; reflexivity).
  assert (EQ : (zlen (l0 ++ [i]) - zlen k1 = zlen l0 - zlen k1 + 1)%Z) by lia.
  split; [|split; [|split; [apply FR|split; [rewrite ES; reflexivity|split; [apply FR|]]]]].
  - exists (l0 ++ [i]), (spec_remove l1 i), k0, k1. split; [constructor; [exact W'|exact F'|rewrite ES; exact Ly|rewrite ES; exact FA|rewrite ES; exact TQ']|].
    split; [exact (pframe_hdata _ _ _ _ _ _ _ FR HD)|]. split; [exact (pframe_cwf _ _ _ _ _ _ _ FR CW)|]. intros P. rewrite PH in P. rewrite E2, E3, EQ. destruct (RX P) as (FC & _). apply R1; auto.
    destruct (Rlt_le_dec 0 rho) as [|Le]; [assumption|]. destruct (NF P eq_refl Le) as (Bad & _). discriminate Bad.
  - rewrite ES. destruct SM as (_ & SM & _). repeat split. exact SM. cbn. rewrite ES in W'. pose proof (pw_n _ _ _ _ _ _ _ _ _ _ _ W') as X. rewrite X. symmetry. exact En.
  - intros [|] j Hj; unfold is_at; cbn [Bool.eqb andb PropEnter.ws]; [|unfold PropAuxP.wsC; now rewrite ES]. unfold PropAuxP.wsB. replace (p_bounds s') with c by (rewrite ES; reflexivity). rewrite ST. unfold zs.
    assert (Li : (i < zlen (st_status (p_bounds s)))%Z) by (pose proof (wf_stat _ _ _ Wb); lia).
    destruct (Z.eqb_spec j i) as [->|NE]; [apply zn_zupd_eq; lia|apply zn_zupd_ne; lia].
Qed.

(** ** The theorems *)
Theorem C72_leaving n m Am Hm (s : qp N) (k : block (N := N)) : in_order n m Am Hm s -> p_noUpdate s = false -> o_enableFlippingBounds (p_opts s) = false -> o_enableNZCTests (p_opts s) = false ->
  bk_st k = ST_INACTIVE -> in_range n m (bk_isB k) (bk_idx k) -> is_on (ws s (bk_isB k) (bk_idx k)) ->
  exists r s', p_changeActiveSet (N := N) junk k s = Ok (r, s') /\
    ((r = SUCCESSFUL_RETURN /\ in_order n m Am Hm s' /\ kept s s' /\ p_opts s' = p_opts s /\ q_status (p_b s') = q_status (p_b s) /\ left_out n m s s' (bk_isB k) (bk_idx k)) \/
     (r = RET_REMOVE_FROM_ACTIVESET_FAILED /\ plainH (p_b s) = true /\ ~ convex_without n m Am Hm s (bk_isB k) (bk_idx k))).
Proof using zero_0 eps_pos J.
  intros IO NU FO NZ EI RG ON. unfold p_changeActiveSet. rewrite EI, NZ. cbv zeta.
  assert (ZU : forall (y : arr) p j, zlen y = (n + m)%Z -> (0 <= p < n + m)%Z -> (0 <= j < n + m)%Z -> zn 0 (zupd y p 0) j = if (j =? p)%Z then 0 else zn 0 y j).
  { intros y p j Ly Hp Hj. destruct (Z.eqb_spec j p) as [->|NE]; [apply zn_zupd_eq; lia|apply zn_zupd_ne; lia]. }
  assert (Z0 : forall (s' : qp N) p, in_order n m Am Hm s' -> kept s s' -> p_opts s' = p_opts s -> q_y (p_b s') = q_y (p_b s) -> q_status (p_b s') = q_status (p_b s) ->
    statuses s s' (fun b j => if is_at (bk_isB k) (bk_idx k) b j then ST_INACTIVE else ws s b j) -> p = posn n (bk_isB k) (bk_idx k) -> (0 <= p < n + m)%Z ->
    exists s2, (y <- wr (q_y (p_b s')) p (n0 (N := N)) ;; Ok (SUCCESSFUL_RETURN, up_b (N := N) (set_q_y (N := N) y) s')) = Ok (SUCCESSFUL_RETURN, s2) /\
      in_order n m Am Hm s2 /\ kept s s2 /\ p_opts s2 = p_opts s /\ q_status (p_b s2) = q_status (p_b s) /\ left_out n m s s2 (bk_isB k) (bk_idx k)).
  { intros s' p IO' KP EO EY ES ST -> Hp. assert (Ly : zlen (q_y (p_b s')) = (n + m)%Z) by (destruct IO' as (l0 & l1 & k0 & k1 & I & _); apply I).
    rcar. rewrite wr_ok by (rcar; lia). cbn [bind]. eexists. split; [reflexivity|]. split; [apply set_in_order; [rewrite zlen_zupd; exact Ly|exact IO']|]. split; [exact KP|]. split; [exact EO|]. split; [exact ES|].
    split; [exact ST|]. intros j Hj. etransitivity; [exact (ZU (q_y (p_b s')) _ j Ly Hp Hj)|]. unfold PropAuxP.yB. now rewrite EY. }
  assert (Hn : (0 <= n)%Z /\ (0 <= m)%Z).
  { destruct IO as (l0 & l1 & k0 & k1 & I & _). destruct (br_dims eps zero infty n m Am s l0 l1 k0 k1 I) as (En & Em & _). pose proof (pi_w _ _ _ _ _ _ _ _ _ _ _ I) as W. split; [rewrite <- En; exact (wf_n _ _ _ (pw_b _ _ _ _ _ _ _ _ _ _ _ W))|rewrite <- Em; exact (wf_n _ _ _ (pw_c _ _ _ _ _ _ _ _ _ _ _ W))]. }
  unfold in_range in RG. destruct (bk_isB k) eqn:Eb.
  - destruct (wp_inv _ _ (leave_B n m Am Hm s (bk_idx k) IO NU FO RG ON)) as ((r, s') & E & K). rewrite E. cbn [bind].
    destruct K as [(-> & IO' & KP & EO & EY & ES & ST)|(Nr & P & CX)].
    + change (negb (SUCCESSFUL_RETURN =r? SUCCESSFUL_RETURN)) with false. cbv iota. destruct (Z0 s' (bk_idx k) IO' KP EO EY ES ST eq_refl ltac:(lia)) as (s2 & E2 & R). rewrite E2. eexists _, _. split; [reflexivity|]. left. split; [reflexivity|exact R].
    + destruct (r =r? SUCCESSFUL_RETURN) eqn:Er; [apply rv_eqb_eq in Er; contradiction|]. cbn [negb]. eexists _, _. split; [reflexivity|]. right. auto.
  - destruct (wp_inv _ _ (leave_C n m Am Hm s (bk_idx k) IO NU FO RG ON)) as ((r, s') & E & K). rewrite E. cbn [bind].
    destruct K as [(-> & IO' & KP & EO & EY & ES & ST)|(Nr & P & CX)].
    + change (negb (SUCCESSFUL_RETURN =r? SUCCESSFUL_RETURN)) with false. cbv iota. assert (EV : pV s' = n) by (destruct IO' as (l0 & l1 & k0 & k1 & I & _); apply I). rewrite EV.
      destruct (Z0 s' (n + bk_idx k)%Z IO' KP EO EY ES ST eq_refl ltac:(lia)) as (s2 & E2 & R). rewrite E2. eexists _, _. split; [reflexivity|]. left. split; [reflexivity|exact R].
    + destruct (r =r? SUCCESSFUL_RETURN) eqn:Er; [apply rv_eqb_eq in Er; contradiction|]. cbn [negb]. eexists _, _. split; [reflexivity|]. right. auto.
Qed.

(** what a multiplier that is not exactly zero contributes is missing in the gradient from then on:
    the iterate stays optimal for that gradient *)
Theorem C72_stays_optimal del n m Am Hm (s s' : qp N) b0 i0 (gl : arr) : in_order n m Am Hm s' -> steady del n m Hm Am s -> kept s s' -> in_range n m b0 i0 -> left_out n m s s' b0 i0 ->
  zlen gl = n -> (forall j, (0 <= j < n)%Z -> zn 0 gl j = zn 0 (q_g (p_b s)) j - yB s (posn n b0 i0) * row Am b0 i0 j) ->
  steady del n m Hm Am (up_b (N := N) (set_q_g (N := N) gl) s').
Proof using.
  intros IO [[] _ _ (M & HA & AS) SB SC GR (LB & LC) AX] ((K1 & K2 & K3 & K4) & (K5 & K6 & K7 & K8 & K9 & K10) & K11 & K12 & K13 & K14) RG (ST & EY) Lg VG. set (s2 := up_b (N := N) (set_q_g (N := N) gl) s').
  destruct IO as (l0 & l1 & k0 & k1 & I & _). pose proof I as [W _ Ly _ _].
  destruct (br_dims eps zero infty n m Am s' l0 l1 k0 k1 I) as (En & Em & _).
  assert (Hn : (0 <= n)%Z) by (rewrite <- En; exact (wf_n _ _ _ (pw_b _ _ _ _ _ _ _ _ _ _ _ W))). assert (Hm0 : (0 <= m)%Z) by (rewrite <- Em; exact (wf_n _ _ _ (pw_c _ _ _ _ _ _ _ _ _ _ _ W))).
  assert (X : forall j, xB s2 j = xB s j) by (intros j; unfold PropAuxP.xB; change (q_x (p_b s2)) with (q_x (p_b s')); now rewrite K1).
  assert (L : forall j, lB s2 j = lB s j) by (intros j; unfold PropAuxP.lB; change (q_lb (p_b s2)) with (q_lb (p_b s')); now rewrite K3). assert (U : forall j, uB s2 j = uB s j) by (intros j; unfold PropAuxP.uB; change (q_ub (p_b s2)) with (q_ub (p_b s')); now rewrite K4).
  assert (LA : forall j, lC s2 j = lC s j) by (intros j; unfold PropAuxP.lC; change (p_lbA s2) with (p_lbA s'); now rewrite K6). assert (UA : forall j, uC s2 j = uC s j) by (intros j; unfold PropAuxP.uC; change (p_ubA s2) with (p_ubA s'); now rewrite K7).
  assert (AC : forall k, act eps zero infty n Am s2 k = act eps zero infty n Am s k) by (intros k; unfold act; apply rsum_ext; intros; now rewrite X).
  assert (TY : forall k, tyC s2 k = tyC s k) by (intros k; unfold PropAuxP.tyC; change (p_cons s2) with (p_cons s'); now rewrite K12).
  assert (WS : forall b i, (0 <= i)%Z -> ws s2 b i = if is_at b0 i0 b i then ST_INACTIVE else ws s b i) by (intros b i Hi; exact (ST b i Hi)).
  assert (WI : forall b i, (0 <= i)%Z -> ws s2 b i <> ST_INACTIVE -> ws s2 b i = ws s b i) by (intros b i Hi NI; rewrite WS in NI |- * by exact Hi; destruct (is_at b0 i0 b i); [contradiction|reflexivity]).
  assert (Y2 : forall j, (0 <= j < n + m)%Z -> yB s2 j = if (j =? posn n b0 i0)%Z then 0 else yB s j) by exact EY.
  assert (YZ : forall b i, in_range n m b i -> ws s2 b i = ST_INACTIVE -> (ws s b i = ST_INACTIVE -> yB s (posn n b i) = 0) -> yB s2 (posn n b i) = 0).
  { intros b i Hi EI Y0. rewrite Y2 by (apply posn_range; assumption). destruct (Z.eqb_spec (posn n b i) (posn n b0 i0)) as [|NE]; [reflexivity|]. apply Y0. rewrite WS in EI by (destruct b; unfold in_range in Hi; lia).
    destruct (is_at b0 i0 b i) eqn:A; [|exact EI]. apply is_at_spec in A as (-> & ->). contradiction. }
  constructor.
  - constructor; auto; try (change (q_x (p_b s2)) with (q_x (p_b s')); change (q_lb (p_b s2)) with (q_lb (p_b s')); change (q_ub (p_b s2)) with (q_ub (p_b s')); change (p_lbA s2) with (p_lbA s'); change (p_ubA s2) with (p_ubA s'); change (p_Ax s2) with (p_Ax s'); change (p_Ax_l s2) with (p_Ax_l s'); change (p_Ax_u s2) with (p_Ax_u s');
      rewrite ?K1, ?K3, ?K4, ?K6, ?K7, ?K8, ?K9, ?K10; assumption).
  - exists l0, l1. apply W.
  - exists k0, k1. apply W.
  - exists M. split; [change (p_A s2) with (p_A s'); now rewrite K5|exact AS].
  - intros i Hi. change (settled (ws s2 true i)). rewrite WS by lia. destruct (is_at _ _ _ _); [left; reflexivity|apply SB, Hi].
  - intros i Hi. change (settled (ws s2 false i)). rewrite WS by lia. destruct (is_at _ _ _ _); [left; reflexivity|apply SC, Hi].
  - intros i Hi. change (q_g (p_b s2)) with gl. rewrite VG by exact Hi. specialize (GR i Hi).
    replace (matvec n Hm (xB s2) i) with (matvec n Hm (xB s) i) by (unfold matvec; apply rsum_ext; intros j Hj; now rewrite X).
    assert (SUM : yB s2 i + rsum 0 m (fun k => Am k i * yB s2 (n + k)%Z) = yB s i + rsum 0 m (fun k => Am k i * yB s (n + k)%Z) - yB s (posn n b0 i0) * row Am b0 i0 i); [|rewrite SUM; lra].
    destruct b0; cbn [posn row] in *; unfold in_range in RG.
    + rewrite (rsum_ext 0 m (fun k => Am k i * yB s2 (n + k)%Z) (fun k => Am k i * yB s (n + k)%Z)) by (intros k Hk; rewrite Y2 by lia; destruct (Z.eqb_spec (n + k) i0); [lia|reflexivity]).
      rewrite (Y2 i) by lia. destruct (Z.eqb_spec i i0) as [->|NE]; ring.
    + rewrite (Y2 i) by lia. destruct (Z.eqb_spec i (n + i0)) as [|_]; [lia|].
      assert (E : rsum 0 m (fun k => Am k i * yB s2 (n + k)%Z) = rsum 0 m (fun k => Am k i * yB s (n + k)%Z) - rsum 0 m (fun k => if (k =? i0)%Z then Am i0 i * yB s (n + i0)%Z else 0)).
      { apply (Rplus_eq_reg_r (rsum 0 m (fun k => if (k =? i0)%Z then Am i0 i * yB s (n + i0)%Z else 0))). rewrite <- rsum_plus. transitivity (rsum 0 m (fun k => Am k i * yB s (n + k)%Z)); [|ring].
        apply rsum_ext. intros k Hk. rewrite Y2 by lia. destruct (Z.eqb_spec k i0) as [->|NE]; [rewrite Z.eqb_refl; ring|]. destruct (Z.eqb_spec (n + k) (n + i0)); [lia|ring]. }
      assert (D : rsum 0 m (fun k => if (k =? i0)%Z then Am i0 i * yB s (n + i0)%Z else 0) = Am i0 i * yB s (n + i0)%Z).
      { rewrite (rsum_delta 0 m i0); [now rewrite Z.eqb_refl|exact RG|]. intros q Hq NE. destruct (Z.eqb_spec q i0); [contradiction|reflexivity]. }
      rewrite E, D. ring.
  - split; intros i Hi.
    + destruct (LB i Hi) as (B1 & B2 & B3). rewrite X, L, U. split; [|split]; intros E.
      * apply B1. rewrite <- E. symmetry. apply (WI true i); [lia|]. cbn [PropEnter.ws]. rewrite E. discriminate.
      * apply B2. rewrite <- E. symmetry. apply (WI true i); [lia|]. cbn [PropEnter.ws]. rewrite E. discriminate.
      * exact (YZ true i Hi E B3).
    + destruct (LC i Hi) as (B1 & B2 & B3). rewrite AC, LA, UA. split; [|split]; intros E.
      * apply B1. rewrite <- E. symmetry. apply (WI false i); [lia|]. cbn [PropEnter.ws]. rewrite E. discriminate.
      * apply B2. rewrite <- E. symmetry. apply (WI false i); [lia|]. cbn [PropEnter.ws]. rewrite E. discriminate.
      * exact (YZ false i Hi E B3).
  - intros k Hk C. rewrite AC. unfold slack_right. rewrite AC, LA, UA. change (p_Ax s2) with (p_Ax s'). change (p_Ax_l s2) with (p_Ax_l s'). change (p_Ax_u s2) with (p_Ax_u s'). rewrite K8, K9, K10. apply AX; [exact Hk|]. rewrite TY in C.
    destruct C as [C|C]; [left|right; exact C]. pose proof (WI false k ltac:(lia) C) as E. cbn [PropEnter.ws] in E. rewrite <- E. exact C.
Qed.
(** with multiplier zero nothing is missing *)
Corollary C72_stays_solved del n m Am Hm (s s' : qp N) b0 i0 : in_order n m Am Hm s' -> steady del n m Hm Am s -> kept s s' -> in_range n m b0 i0 -> left_out n m s s' b0 i0 -> yB s (posn n b0 i0) = 0 ->
  steady del n m Hm Am s'.
Proof using.
  intros IO SD KP RG LO Y0. pose proof (C72_stays_optimal del n m Am Hm s s' b0 i0 (q_g (p_b s')) IO SD KP RG LO) as C. destruct KP as ((_ & K2 & _) & _). rewrite K2 in C.
  pose proof (C (sz_g _ _ _ _ _ _ (e_sz _ _ _ _ _ _ _ _ _ SD))) as C1. rewrite Y0 in C1. specialize (C1 ltac:(intros; ring)). rewrite <- K2 in C1.
  clear - C1. destruct C1 as [[] B1 B2 A1 S1 S2 G L X]. constructor; [constructor; assumption|assumption..].
Qed.
End Leave.
Print Assumptions C72_leaving.
Print Assumptions C72_stays_optimal.

(** ** Examples *)
Definition lv_opts : options tqN := set_o_enableNZCTests false (set_o_enableFlippingBounds false optDefault).
(** the hypotheses of [C72_leaving] are met, and the removal cannot fail *)
Example C72_ex : exists (s : qp tqN) (k : block (N := tqN)), PropIter.in_order tq_eps 0 tq_inf 2 1 tq_Am tq_Hm s /\ p_noUpdate s = false /\ o_enableFlippingBounds (p_opts s) = false /\ o_enableNZCTests (p_opts s) = false /\
  bk_st k = ST_INACTIVE /\ in_range 2 1 (bk_isB k) (bk_idx k) /\ is_on (ws tq_eps 0 tq_inf s (bk_isB k) (bk_idx k)) /\ convex_without tq_eps 0 tq_inf 2 1 tq_Am tq_Hm s (bk_isB k) (bk_idx k).
Proof.
  destruct (C47_ready tq_eps 0 tq_inf tq_junk eq_refl tq_junk_ok 2 1 HST_UNKNOWN lv_opts tq_H [0; 0] tq_A None None None None) as (s & E & RD & V & C & O & HT & FX & AC & _ & IB & IC); try (exact I || lia || reflexivity || discriminate).
  { intros i j Hi Hj. assert (i = 0 \/ i = 1)%Z as [->| ->] by lia; assert (j = 0 \/ j = 1)%Z as [->| ->] by lia; reflexivity. }
  destruct (C48_first_factorisation tq_eps 0 tq_inf tq_junk eq_refl tq_eps_pos tq_junk_ok 2 1 tq_Am tq_Hm s RD tq_posdef) as (s0 & s1 & E0 & L0 & E1 & X1 & O1 & V1 & C1 & _ & K1 & B1 & T1); [unfold plainH, is_hst; rewrite HT; reflexivity|].
  assert (GS : forall (b : subjectTo) i, st_getStatus b i = Ok ST_INACTIVE -> (0 <= i < st_n b)%Z -> zs (st_status b) i = ST_INACTIVE).
  { intros b i Eg' Hi. unfold st_getStatus in Eg'. destruct (Z.leb_spec 0 i); [|lia]. destruct (Z.ltb_spec i (st_n b)); [|lia]. cbn [andb] in Eg'. apply rd_inv in Eg' as (_ & Eg'). apply Eg'. }
  pose proof (exec_in_order tq_eps 0 tq_inf eq_refl tq_eps_pos tq_junk tq_junk_ok 2 1 tq_Am tq_Hm s s0 [OChol] s1 RD E0 X1) as IO.
  apply (in_order_relabel tq_eps 0 tq_inf 2 1 tq_Am tq_Hm s1 QPS_PERFORMINGHOMOTOPY) in IO. set (s2 := up_b (N := tqN) (set_q_status (N := tqN) QPS_PERFORMINGHOMOTOPY) s1) in IO.
  assert (ST2 : zs (st_status (p_cons s2)) 0 = ST_INACTIVE) by (change (p_cons s2) with (p_cons s1); rewrite K1; apply (GS (p_cons s)); [apply IC; lia|]; change (st_n (p_cons s)) with (pC s); lia).
  assert (AC2 : pAC s2 = 0%Z) by (unfold pAC; change (p_cons s2) with (p_cons s1); rewrite K1; exact AC).
  destruct IO as (l0 & l1 & k0 & k1 & I & HD & CW & RX). pose proof (Rexact_valid _ _ _ _ _ _ _ _ RX) as RV.
  destruct (br_dims tq_eps 0 tq_inf 2 1 tq_Am s2 l0 l1 k0 k1 I) as (En & Em & EF & EC & EX & ND).
  pose proof (pw_c _ _ _ _ _ _ _ _ _ _ _ (pi_w _ _ _ _ _ _ _ _ _ _ _ I)) as Wc.
  assert (K10 : k1 = []) by (destruct k1 as [|a q]; [reflexivity|]; rewrite zlen_cons in EC; pose proof (zlen_nonneg q); lia). subst k1.
  pose proof (pw_b _ _ _ _ _ _ _ _ _ _ _ (pi_w _ _ _ _ _ _ _ _ _ _ _ I)) as Wb.
  assert (H0 : In 0%Z l0) by (apply (wf_in0 _ _ _ Wb); change (p_bounds s2) with (p_bounds s1); rewrite B1; change (st_n (p_bounds s)) with (pV s); split; [lia|]; apply (GS (p_bounds s)); [apply IB; lia|]; change (st_n (p_bounds s)) with (pV s); lia).
  assert (IND : exists p, (0 <= p < zlen l0 - zlen (@nil Z))%Z /\ comb l0 (tq_Am 0) (ce 2 (p_Q s2)) p <> 0).
  { apply (indep_iff 2 (p_sizeT s2) l0 [] tq_Am (p_Q s2) (p_T s2) ND (pi_tq _ _ _ _ _ _ _ _ _ _ _ I)). exists (fun u => delta u 0). split; [intros c []|].
    rewrite (lsum_delta l0 0%Z); [|exact ND|exact H0|intros q Hq NE; unfold delta; destruct (Z.eqb_spec q 0); [contradiction|ring]]. rewrite delta_refl. change (tq_Am 0 0) with 3. lra. }
  assert (Hin : In 0%Z k0) by (apply (wf_in0 _ _ _ Wc); split; [change (st_n (p_cons s2)) with (pC s2); lia|exact ST2]).
  destruct (addC_step tq_eps 0 tq_inf eq_refl tq_junk tq_junk_ok 2 1 tq_Am s2 l0 l1 k0 [] 0 ST_LOWER true I Hin eq_refl IND (fun _ => RV)) as (s3 & E3 & I3 & FR & _ & XR). cbn [app] in I3.
  pose proof (pc_eq _ _ _ (c_addC (N := tqN) tq_junk 0 ST_LOWER true s2) E3) as CH. cbn [snd] in CH.
  assert (W3 : ws tq_eps 0 tq_inf s3 false 0 = ST_LOWER).
  { apply (chgX_new tq_eps 0 tq_inf false s2 0 ST_LOWER s3 CH ST2). apply (wf_in1 _ _ _ (pw_c _ _ _ _ _ _ _ _ _ _ _ (pi_w _ _ _ _ _ _ _ _ _ _ _ I3))). left. reflexivity. }
  exists s3, (mkBlock (N := tqN) 0 0%Z ST_INACTIVE false).
  assert (O3 : p_opts s3 = lv_opts) by (destruct FR as (_ & _ & -> & _); change (p_opts s2) with (p_opts s1); now rewrite O1, O).
  split; [|split; [|split; [now rewrite O3|split; [now rewrite O3|split; [reflexivity|split; [unfold in_range; cbn; lia|split; [left; exact W3|]]]]]]].
  - exists l0, l1, (spec_remove k0 0), [0%Z]. split; [exact I3|]. split; [exact (pframe_hdata _ _ _ _ _ _ _ FR HD)|]. split; [exact (pframe_cwf _ _ _ _ _ _ _ FR CW)|].
    change (zlen [0%Z]) with 1%Z. pose proof (XR eq_refl tq_Hm RX) as X. change (zlen (@nil Z)) with 0%Z in X. replace (zlen l0 - 0 - 1)%Z with (zlen l0 - 1)%Z in X by lia. exact X.
  - unfold p_noUpdate, noUpdate. destruct FR as (_ & _ & _ & _ & -> & _). reflexivity.
  - intros v (NZ & _). apply tq_posdef, NZ.
Qed.
