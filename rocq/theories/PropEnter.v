(** C70: a bound or constraint enters the working set of the homotopy.  If its gradient depends on
    the active ones, one of those leaves in exchange: the first whose multiplier becomes zero. *)
From Verif Require Import Base Types Num Options Indexlist IndexlistProofs Loops RSum LinSpec SafeLib SubjectTo SubjectToProofs SubjectToProofs2
  Flipper PropFlipper Matrices MatLib MatSafe CsLib PropDense PropSparse PropSparse2 LinAlg PropLinAlg QProblemB QPBSafe QPBSafe2 QPBEx QPBX1 QPBX2 QPBX3 QPBX4 QPBX5 QPBX7 QPBX8 QPBX11 PropHess PropAux PropRatio
  QProblem QProblem2 QProblem3 QProblem4 QProblem5 QPFrame PropNull QProblem6 QPFrame2 QPFrame3 QPFrame4 PropSQ PropAuxP QPX1 QPX2 QPX3 QPX4 QPX5 QPX6 QPX7 QPX8 QPX9 QPX10 QPX11 QPX12 QPX14 QPX15 QPX16 QPX18 QPX19 QPX20 QPX21 QPX13 QPX17 PropTQ PropTQ2 PropStepP PropStepQ PropIter PropExch.
Local Open Scope R_scope.

Section Enter.
Variables eps zero infty : R.
Hypothesis zero_0 : zero = 0.
Hypothesis eps_pos : 0 < eps.
Notation N := (RNumT eps zero infty).
Notation arr := (list R).
Variable junk : Z -> arr.
Hypothesis J : junk_ok (N := N) junk.
Notation pinv := (pinv eps zero infty).
Notation pframe := (pframe eps zero infty).
Notation Rvalid := (Rvalid eps zero infty).
Notation Rexact := (Rexact eps zero infty).
Notation exch := (exch eps zero infty).
Notation sres := (sres eps zero infty).
Notation tyB := (tyB eps zero infty). Notation tyC := (tyC eps zero infty).
Notation wsB := (wsB eps zero infty). Notation wsC := (wsC eps zero infty).
Notation xB := (xB eps zero infty). Notation yB := (yB eps zero infty).
Notation lB := (lB eps zero infty). Notation uB := (uB eps zero infty).
Notation lC := (lC eps zero infty). Notation uC := (uC eps zero infty).
Notation cand := (cand eps zero infty). Notation leaves_at := (leaves_at eps zero infty).
Notation on_active := (on_active eps zero infty).
Notation resolved := (resolved eps zero infty).

(** ** What is meant *)
(** bounds ([b = true]) and constraints alike *)
Definition ws (s : qp N) (b : bool) (i : Z) : SubjectToStatus := if b then wsB s i else wsC s i.
Definition row (Am : Z -> Z -> R) (b : bool) (i j : Z) : R := if b then (if (j =? i)%Z then 1 else 0) else Am i j.
Definition posn (n : Z) (b : bool) (i : Z) : Z := if b then i else (n + i)%Z.
Definition is_on (v : SubjectToStatus) : Prop := v = ST_LOWER \/ v = ST_UPPER.
(** the row [a] depends on those of the active bounds and constraints *)
Definition depends (n m : Z) (Am : Z -> Z -> R) (s : qp N) (a : Z -> R) : Prop := forall v,
  (forall j, (0 <= j < n)%Z -> is_on (wsB s j) -> v j = 0) -> (forall k, (0 <= k < m)%Z -> is_on (wsC s k) -> rsum 0 n (fun j => Am k j * v j) = 0) ->
  rsum 0 n (fun j => a j * v j) = 0.
(** iterate, problem data and types are what they were *)
Definition kept (s s' : qp N) : Prop :=
  (q_x (p_b s') = q_x (p_b s) /\ q_g (p_b s') = q_g (p_b s) /\ q_lb (p_b s') = q_lb (p_b s) /\ q_ub (p_b s') = q_ub (p_b s)) /\
  (p_A s' = p_A s /\ p_lbA s' = p_lbA s /\ p_ubA s' = p_ubA s /\ p_Ax s' = p_Ax s /\ p_Ax_l s' = p_Ax_l s /\ p_Ax_u s' = p_Ax_u s) /\
  st_type (p_bounds s') = st_type (p_bounds s) /\ st_type (p_cons s') = st_type (p_cons s) /\ pV s' = pV s /\ pC s' = pC s.
(** the statuses, after [(b0, i0)] has got the status [v] *)
Definition statuses (s s' : qp N) (v : bool -> Z -> SubjectToStatus) : Prop := forall b i, (0 <= i)%Z -> ws s' b i = v b i.
Definition is_at (b0 : bool) (i0 : Z) (b : bool) (i : Z) : bool := Bool.eqb b b0 && (i =? i0)%Z.
Definition sgn (v : SubjectToStatus) : R := if is_sts v ST_LOWER then 1 else -1.
(** the coefficients that express the entering row by active ones; it does depend on them, or the
    test was made with tolerance zero *)
Definition expressed (n m : Z) (Am : Z -> Z -> R) (b0 : bool) (i0 : Z) (v : SubjectToStatus) (s : qp N) (w wA : Z -> R) : Prop :=
  on_active n m s w wA /\ (depends n m Am s (row Am b0 i0) \/ (o_epsLITests (p_opts s) = 0 /\ plainH (p_b s) = true) -> combines n m Am (fun j => sgn v * row Am b0 i0 j) w wA).

Definition entered (n m : Z) (Am : Z -> Z -> R) (b0 : bool) (i0 : Z) (v : SubjectToStatus) (s s' : qp N) : Prop :=
  ~ depends n m Am s (row Am b0 i0) /\ q_y (p_b s') = q_y (p_b s) /\ statuses s s' (fun b i => if is_at b0 i0 b i then v else ws s b i).
Definition swapped (n m : Z) (Am : Z -> Z -> R) (b0 : bool) (i0 : Z) (v : SubjectToStatus) (s s' : qp N) (w wA : Z -> R) (b1 : bool) (q : Z) : Prop :=
  expressed n m Am b0 i0 v s w wA /\
  cand n m s w wA b1 q /\ leaves_at n s w wA b1 q < o_maxDualJump (p_opts s) /\ (forall b i, cand n m s w wA b i -> leaves_at n s w wA b1 q <= leaves_at n s w wA b i) /\
  exchanged n m w wA (posn n b0 i0) (sgn v) (leaves_at n s w wA b1 q) (yB s) (yB s') /\
  statuses s s' (fun b i => if is_at b0 i0 b i then v else if is_at b1 q b i then ST_INACTIVE else ws s b i).
Definition stuck (n m : Z) (Am : Z -> Z -> R) (b0 : bool) (i0 : Z) (v : SubjectToStatus) (s s' : qp N) (w wA : Z -> R) : Prop :=
  expressed n m Am b0 i0 v s w wA /\ (forall b i, cand n m s w wA b i -> o_maxDualJump (p_opts s) <= leaves_at n s w wA b i) /\
  q_infeasible (p_b s') = true.
Definition undone (s s' : qp N) : Prop := q_y (p_b s') = q_y (p_b s) /\ statuses s s' (ws s).
Definition outcome (n m : Z) (Am : Z -> Z -> R) (b0 : bool) (i0 : Z) (v : SubjectToStatus) (s s' : qp N) (r infeas : returnValue) : Prop :=
  (r = SUCCESSFUL_RETURN /\ (entered n m Am b0 i0 v s s' \/ exists w wA b1 q, swapped n m Am b0 i0 v s s' w wA b1 q)) \/
  (r = infeas /\ undone s s' /\ exists w wA, stuck n m Am b0 i0 v s s' w wA) \/
  (r <> SUCCESSFUL_RETURN /\ r <> infeas /\ undone s s').

(** ** Dependence and the null space *)
Lemma depends_cols n m Am (s : qp N) l0 l1 k0 k1 a : pinv n m Am s l0 l1 k0 k1 -> depends n m Am s a ->
  forall p, (0 <= p < zlen l0 - zlen k1)%Z -> comb l0 a (ce n (p_Q s)) p = 0.
Proof using.
  intros I D p Hp. pose proof I as [W F Ly FA TQ]. destruct W as [En Em Wb Wc LQ LR ES LT WA]. destruct (range_b _ _ _ Wb) as (Rg0 & _). destruct (range_b _ _ _ Wc) as (_ & Rk1).
  change (st_n (p_bounds s)) with (pV s) in *. change (st_n (p_cons s)) with (pC s) in *. rewrite En in *. rewrite Em in *.
  assert (ND0 : NoDup l0) by exact (rep_NoDup _ _ (wf_ina _ _ _ Wb)).
  set (v := fun u => if in_dec Z.eq_dec u l0 then ce n (p_Q s) u p else 0).
  assert (S : forall b, rsum 0 n (fun j => b j * v j) = lsum l0 (fun u => b u * ce n (p_Q s) u p)).
  { intros b. rewrite <- (lsum_rsum 0 n l0); [|exact ND0|exact Rg0|intros i Hi Ni; unfold v; destruct (in_dec _ _ _); [contradiction|ring]].
    apply lsum_ext. intros u Hu. unfold v. destruct (in_dec _ _ _); [reflexivity|contradiction]. }
  unfold comb. rewrite <- S. apply D.
  - intros j Hj Na. unfold v. destruct (in_dec _ _ _) as [Hl|]; [|reflexivity]. apply (wf_in0 _ _ _ Wb) in Hl as (_ & Hl). unfold PropAuxP.wsB in Na. rewrite Hl in Na. destruct Na; discriminate.
  - intros k Hk Na. rewrite S. apply (kernel_col n (p_sizeT s) l0 k1 Am (p_Q s) (p_T s) ND0 TQ p Hp k). apply (wf_in1 _ _ _ Wc). change (st_n (p_cons s)) with (pC s). rewrite Em. split; [exact Hk|].
    unfold PropAuxP.wsC in Na. destruct Na as [E|E]; rewrite E; reflexivity.
Qed.

(** ** Statuses, types and data *)
Definition chgX (b0 : bool) (s : qp N) (i : Z) (v : SubjectToStatus) (s' : qp N) : Prop := if b0 then chgB (N := N) s i v s' else chgC (N := N) s i v s'.
Lemma chgX_types b0 s i v s' : chgX b0 s i v s' -> st_type (p_bounds s') = st_type (p_bounds s) /\ st_type (p_cons s') = st_type (p_cons s).
Proof using. destruct b0; intros ((_ & T & _) & E); rewrite E; auto. Qed.
Lemma chgX_ws b0 s i v s' : (0 <= i)%Z -> chgX b0 s i v s' -> ws s' b0 i = v -> statuses s s' (fun b j => if is_at b0 i b j then v else ws s b j).
Proof using.
  intros Hi0 C V b j Hj. unfold is_at. destruct b0, C as ((_ & _ & C & _) & E); destruct b; cbn [Bool.eqb andb].
  - destruct (Z.eqb_spec j i) as [->|NE]; [exact V|]. apply (C j Hj NE).
  - cbn [ws]. unfold PropAuxP.wsC. now rewrite E.
  - cbn [ws]. unfold PropAuxP.wsB. now rewrite E.
  - destruct (Z.eqb_spec j i) as [->|NE]; [exact V|]. apply (C j Hj NE).
Qed.
Lemma chgX_new b0 s i v s' : chgX b0 s i v s' -> ws s b0 i = ST_INACTIVE -> is_active (ws s' b0 i) = true -> ws s' b0 i = v.
Proof using.
  intros C V A. assert (D : ws s' b0 i = ws s b0 i \/ ws s' b0 i = v \/ ws s' b0 i = ST_UNDEFINED) by (destruct b0; apply C).
  destruct D as [D|[D|D]]; [rewrite D, V in A; discriminate A|exact D|rewrite D in A; discriminate A].
Qed.
Lemma kept_dat s s' y : dat (N := N) (up_b (N := N) (set_q_y (N := N) y) s) (up_b (N := N) (set_q_y (N := N) y) s') ->
  st_type (p_bounds s') = st_type (p_bounds s) -> st_type (p_cons s') = st_type (p_cons s) -> kept s s'.
Proof using. intros ((D1 & _ & D2 & D3 & D4 & _) & D5 & D6 & D7) T1 T2. split; [split; [exact D1|]; split; [exact D4|]; split; [exact D2|exact D3]|]. split; [exact D5|]. split; [exact T1|]. split; [exact T2|]. split; [exact D6|exact D7]. Qed.
Lemma dat_y s s' : dat (N := N) s s' -> dat (N := N) (up_b (N := N) (set_q_y (N := N) []) s) (up_b (N := N) (set_q_y (N := N) []) s').
Proof using. intros ((D1 & D2 & D3) & D4). exact (conj (conj D1 (conj eq_refl D3)) D4). Qed.
Lemma kept_trans a b c : kept a b -> kept b c -> kept a c.
Proof using. unfold kept. intuition congruence. Qed.
Lemma kept_refl s : kept s s.
Proof using. repeat split. Qed.
Lemma undone_refl s : undone s s.
Proof using. split; [reflexivity|]. intros b i Hi. reflexivity. Qed.

(** ** A constraint *)
Lemma added_C n m Am Hm (so : qp N) l0 l1 k0 k1 number v : pinv n m Am so l0 l1 k0 k1 -> hdata eps zero infty n so Hm -> Rvalid n so (zlen l0 - zlen k1) -> licfg eps zero infty n m Hm l0 k1 so ->
  (forall j, (0 <= j < n)%Z -> settled (wsB so j)) -> In number k0 -> is_active v = true ->
  wp (p_addConstraint (N := N) junk number v true true so) (fun '(r, s') => kept so s' /\ outcome n m Am false number v so s' r RET_ADDCONSTRAINT_FAILED_INFEASIBILITY).
Proof using zero_0 eps_pos J.
  intros I HD RV CF SB Hin Hv. pose proof I as [W F Ly FA TQ]. pose proof (pw_c _ _ _ _ _ _ _ _ _ _ _ W) as Wc.
  assert (Same : forall r, r <> SUCCESSFUL_RETURN -> r <> RET_ADDCONSTRAINT_FAILED_INFEASIBILITY -> kept so so /\ outcome n m Am false number v so so r RET_ADDCONSTRAINT_FAILED_INFEASIBILITY).
  { intros r N1 N2. split; [apply kept_refl|]. right. right. split; [exact N1|]. split; [exact N2|apply undone_refl]. }
  unfold p_addConstraint, addConstraint_check. pose proof Hin as Hin'. apply (wf_in0 _ _ _ Wc) in Hin' as (Hr & HI). rewrite (getStatus_ok _ _ _ _ Wc Hr). cbn [bind]. rewrite HI.
  change (negb (is_sts ST_INACTIVE ST_INACTIVE)) with false. cbv iota.
  destruct (getNumberOfType_ok (p_cons so) k0 k1 ST_UNBOUNDED Wc) as (nuc & ->). cbn [bind].
  destruct (_ =? nuc)%Z; [cbn [bind wp]; apply Same; discriminate|].
  destruct (p_noUpdate so) eqn:NU; cbn [bind]; [cbn [wp]; apply Same; discriminate|]. cbn [andb].
  apply wp_bind. eapply wp_mono; [apply (ensure_C eps zero infty zero_0 eps_pos junk J n m Am Hm so l0 l1 k0 k1 number v I HD eps_pos NU RV CF Hin)|]. clear Same.
  intros [r s1] (s & SR & CASES).
  match goal with |- wp ?x _ => enough (G : wp x (fun '(r, s') => kept s s' /\ outcome n m Am false number v s s' r RET_ADDCONSTRAINT_FAILED_INFEASIBILITY)) end.
  { eapply wp_mono; [exact G|]. intros [r' s'] K. destruct SR as [->|(c & _ & _ & ->)]; exact K. }
  assert (SB1 : forall j, (0 <= j < n)%Z -> settled (wsB s j)) by (destruct SR as [->|(c & _ & _ & ->)]; exact SB). clear SB.
  assert (ST0 : ws s false number = ST_INACTIVE) by (destruct SR as [->|(c & _ & _ & ->)]; exact HI).
  clear W F Ly FA TQ. apply (sres_pinv _ _ _ n m Am so s l0 l1 k0 k1 SR) in I. apply (sres_valid _ _ _ _ _ _ _ _ SR) in RV. clear SR so NU HD CF HI Wc Hr. rename Hin into Hin0. pose proof I as [W F Ly FA TQ]. pose proof (pw_c _ _ _ _ _ _ _ _ _ _ _ W) as Wc.
  assert (Rn : (0 <= number)%Z) by (apply (wf_in0 _ _ _ Wc) in Hin0 as (Hr & _); lia).
  assert (UPD : forall (q q' : qp N) lp lx kx kp, addConstraint_update (N := N) junk number v true q = Ok (SUCCESSFUL_RETURN, q') -> ws q false number = ST_INACTIVE -> pinv n m Am q' lp lx kx (kp ++ [number]) ->
    kept q q' /\ q_y (p_b q') = q_y (p_b q) /\ statuses q q' (fun b i => if is_at false number b i then v else ws q b i)).
  { intros q q' lp lx kx kp E V I'. pose proof (pc_eq _ _ _ (d_addC (N := N) junk q number v true q (dat_refl q)) E) as DT. pose proof (pc_eq _ _ _ (c_addC (N := N) junk number v true q) E) as CH. cbn [snd] in CH. unfold dok in DT. cbn [snd] in DT.
    assert (V' : ws q' false number = v).
    { apply (chgX_new false q number v q' CH V). apply (wf_in1 _ _ _ (pw_c _ _ _ _ _ _ _ _ _ _ _ (pi_w _ _ _ _ _ _ _ _ _ _ _ I'))). apply in_or_app. right. left. reflexivity. }
    destruct (chgX_types false q number v q' CH) as (T1 & T2).
    split; [exact (kept_dat q q' [] (dat_y q q' DT) T1 T2)|]. split; [apply DT|]. exact (chgX_ws false q number v q' Rn CH V'). }
  destruct CASES as [(-> & -> & IND)|[(-> & ->)|(w & wA & OA & TOL & COMB & RS)]].
  - cbn [afterLI]. destruct (addC_step eps zero infty zero_0 junk J n m Am s l0 l1 k0 k1 number v true I Hin0 Hv IND (fun _ => RV)) as (s' & E & I' & _). rewrite E. cbn [wp].
    destruct (UPD s s' _ _ _ _ E ST0 I') as (K & Y & ST). split; [exact K|]. left. split; [reflexivity|]. left. split; [|split; [exact Y|exact ST]].
    intros D. destruct IND as (p & Hp & Np). apply Np. exact (depends_cols n m Am s l0 l1 k0 k1 (Am number) I D p Hp).
  - cbn [afterLI wp]. split; [apply kept_refl|]. right. right. split; [discriminate|]. split; [discriminate|apply undone_refl].
  - assert (EXP : expressed n m Am false number v s w wA).
    { split; [exact OA|]. intros D. apply COMB; [|exact SB1]. destruct D as [D|(E0 & P)]; [|now apply TOL]. intros p Hp. exact (depends_cols n m Am s l0 l1 k0 k1 (Am number) I D p Hp). }
    destruct RS as [(-> & -> & LATE)|(-> & b1 & q & lp & lx & kx & kp & EXC & CA & LT & LEAST & EY & (y1 & DT) & CH)]; cbn [afterLI].
    + cbn [wp]. split; [repeat split|]. right. left. split; [reflexivity|]. split; [split; [reflexivity|intros [|] i Hi; reflexivity]|]. exists w, wA. split; [exact EXP|]. split; [exact LATE|reflexivity].
    + pose proof EXC as [I1 FR1 NZ1 INl INk IND1 _ _ _]. assert (RV1 := exch_valid _ _ _ _ _ _ _ _ _ _ _ _ _ _ _ _ _ _ EXC I).
      assert (IND2 : exists p, (0 <= p < zlen lp - zlen kp)%Z /\ comb lp (Am number) (ce n (p_Q s1)) p <> 0).
      { destruct IND1 as (p & Hp & Np). exists p. split; [exact Hp|]. intros Z0. apply Np. rewrite comb_scal, Z0. apply Rmult_0_r. }
      destruct (addC_step eps zero infty zero_0 junk J n m Am s1 lp lx kx kp number v true I1 (INk _ Hin0) Hv IND2 (fun _ => RV1)) as (s' & E & I' & _). rewrite E. cbn [wp].
      assert (V1 : ws s1 false number = ST_INACTIVE) by (apply (wf_in0 _ _ _ (pw_c _ _ _ _ _ _ _ _ _ _ _ (pi_w _ _ _ _ _ _ _ _ _ _ _ I1))), INk, Hin0).
      destruct (UPD s1 s' _ _ _ _ E V1 I') as (K & Y & ST).
      assert (CX : chgX b1 s q ST_INACTIVE s1 /\ ws s1 b1 q = ST_INACTIVE) by (destruct b1; exact CH). destruct CX as (CX & VX).
      assert (Q0 : (0 <= q)%Z) by (destruct b1, CA as (X & _); lia).
      destruct (chgX_types b1 s q _ s1 CX) as (T1 & T2). pose proof (kept_dat s s1 y1 DT T1 T2) as K1. pose proof (chgX_ws b1 s q _ s1 Q0 CX VX) as ST1.
      split; [exact (kept_trans _ _ _ K1 K)|]. left. split; [reflexivity|]. right. exists w, wA, b1, q. split; [exact EXP|]. split; [exact CA|]. split; [exact LT|]. split; [exact LEAST|]. split.
      * intros j Hj. unfold PropAuxP.yB at 1. rewrite Y. exact (EY j Hj).
      * intros b i Hi. rewrite (ST b i Hi). destruct (is_at false number b i); [reflexivity|]. exact (ST1 b i Hi).
Qed.
(** ** A bound *)
Lemma added_B n m Am Hm (so : qp N) l0 l1 k0 k1 number v : pinv n m Am so l0 l1 k0 k1 -> hdata eps zero infty n so Hm -> Rvalid n so (zlen l0 - zlen k1) -> licfg eps zero infty n m Hm l0 k1 so ->
  (forall j, (0 <= j < n)%Z -> settled (wsB so j)) -> In number l0 -> is_active v = true ->
  wp (p_addBound (N := N) junk number v true true so) (fun '(r, s') => kept so s' /\ outcome n m Am true number v so s' r RET_ADDBOUND_FAILED_INFEASIBILITY).
Proof using zero_0 eps_pos J.
  intros I HD RV CF SB Hin Hv. pose proof I as [W F Ly FA TQ]. pose proof (pw_b _ _ _ _ _ _ _ _ _ _ _ W) as Wc.
  assert (Same : forall r, r <> SUCCESSFUL_RETURN -> r <> RET_ADDBOUND_FAILED_INFEASIBILITY -> kept so so /\ outcome n m Am true number v so so r RET_ADDBOUND_FAILED_INFEASIBILITY).
  { intros r N1 N2. split; [apply kept_refl|]. right. right. split; [exact N1|]. split; [exact N2|apply undone_refl]. }
  unfold p_addBound, addBound_check. pose proof Hin as Hin'. apply (wf_in0 _ _ _ Wc) in Hin' as (Hr & HI). rewrite (getStatus_ok _ _ _ _ Wc Hr). cbn [bind]. rewrite HI.
  change (negb (is_sts ST_INACTIVE ST_INACTIVE)) with false. cbv iota.
  destruct (getNumberOfType_ok (p_bounds so) l0 l1 ST_UNBOUNDED Wc) as (nuc & ->). cbn [bind].
  destruct (_ =? nuc)%Z; [cbn [bind wp]; apply Same; discriminate|].
  destruct (p_noUpdate so) eqn:NU; cbn [bind]; [cbn [wp]; apply Same; discriminate|]. cbn [andb].
  apply wp_bind. eapply wp_mono; [apply (ensure_B eps zero infty zero_0 eps_pos junk J n m Am Hm so l0 l1 k0 k1 number v I HD eps_pos NU RV CF Hin)|]. clear Same.
  intros [r s1] (s & SR & CASES).
  match goal with |- wp ?x _ => enough (G : wp x (fun '(r, s') => kept s s' /\ outcome n m Am true number v s s' r RET_ADDBOUND_FAILED_INFEASIBILITY)) end.
  { eapply wp_mono; [exact G|]. intros [r' s'] K. destruct SR as [->|(c & _ & _ & ->)]; exact K. }
  assert (SB1 : forall j, (0 <= j < n)%Z -> settled (wsB s j)) by (destruct SR as [->|(c & _ & _ & ->)]; exact SB). clear SB.
  assert (ST0 : ws s true number = ST_INACTIVE) by (destruct SR as [->|(c & _ & _ & ->)]; exact HI).
  clear W F Ly FA TQ. apply (sres_pinv _ _ _ n m Am so s l0 l1 k0 k1 SR) in I. apply (sres_valid _ _ _ _ _ _ _ _ SR) in RV. clear SR so NU HD CF HI Wc Hr. rename Hin into Hin0. pose proof I as [W F Ly FA TQ]. pose proof (pw_b _ _ _ _ _ _ _ _ _ _ _ W) as Wc.
  assert (ND0 : NoDup l0) by exact (rep_NoDup _ _ (wf_ina _ _ _ Wc)).
  assert (Rn : (0 <= number)%Z) by (apply (wf_in0 _ _ _ Wc) in Hin0 as (Hr & _); lia).
  assert (UPD : forall (q q' : qp N) lp lx kx kp, addBound_update (N := N) junk number v true q = Ok (SUCCESSFUL_RETURN, q') -> ws q true number = ST_INACTIVE -> pinv n m Am q' lp (lx ++ [number]) kx kp ->
    kept q q' /\ q_y (p_b q') = q_y (p_b q) /\ statuses q q' (fun b i => if is_at true number b i then v else ws q b i)).
  { intros q q' lp lx kx kp E V I'. pose proof (pc_eq _ _ _ (d_addB (N := N) junk q number v true q (dat_refl q)) E) as DT. pose proof (pc_eq _ _ _ (c_addB (N := N) junk number v true q) E) as CH. cbn [snd] in CH. unfold dok in DT. cbn [snd] in DT.
    assert (V' : ws q' true number = v).
    { apply (chgX_new true q number v q' CH V). apply (wf_in1 _ _ _ (pw_b _ _ _ _ _ _ _ _ _ _ _ (pi_w _ _ _ _ _ _ _ _ _ _ _ I'))). apply in_or_app. right. left. reflexivity. }
    destruct (chgX_types true q number v q' CH) as (T1 & T2).
    split; [exact (kept_dat q q' [] (dat_y q q' DT) T1 T2)|]. split; [apply DT|]. exact (chgX_ws true q number v q' Rn CH V'). }
  destruct CASES as [(-> & -> & IND)|[(-> & ->)|(w & wA & OA & TOL & COMB & RS)]].
  - cbn [afterLI]. destruct (addB_step eps zero infty zero_0 junk J n m Am s l0 l1 k0 k1 number v true I Hin0 Hv IND (fun _ => RV)) as (s' & lf & E & _ & I' & _). rewrite E. cbn [wp].
    destruct (UPD s s' _ _ _ _ E ST0 I') as (K & Y & ST). split; [exact K|]. left. split; [reflexivity|]. left. split; [|split; [exact Y|exact ST]].
    intros D. destruct IND as (p & Hp & Np). apply Np. rewrite <- (comb_delta l0 number (ce n (p_Q s)) p) by auto; exact (depends_cols n m Am s l0 l1 k0 k1 (fun u => delta u number) I D p Hp).
  - cbn [afterLI wp]. split; [apply kept_refl|]. right. right. split; [discriminate|]. split; [discriminate|apply undone_refl].
  - assert (EXP : expressed n m Am true number v s w wA).
    { split; [exact OA|]. intros D. apply COMB; [|exact SB1]. destruct D as [D|(E0 & P)]; [|now apply TOL]. intros p Hp. rewrite <- (comb_delta l0 number (ce n (p_Q s)) p) by auto; exact (depends_cols n m Am s l0 l1 k0 k1 (fun u => delta u number) I D p Hp). }
    destruct RS as [(-> & -> & LATE)|(-> & b1 & q & lp & lx & kx & kp & EXC & CA & LT & LEAST & EY & (y1 & DT) & CH)]; cbn [afterLI].
    + cbn [wp]. split; [repeat split|]. right. left. split; [reflexivity|]. split; [split; [reflexivity|intros [|] i Hi; reflexivity]|]. exists w, wA. split; [exact EXP|]. split; [exact LATE|reflexivity].
    + pose proof EXC as [I1 FR1 NZ1 INl INk IND1 _ _ _]. assert (RV1 := exch_valid _ _ _ _ _ _ _ _ _ _ _ _ _ _ _ _ _ _ EXC I).
      assert (ND1 : NoDup lp) by exact (rep_NoDup _ _ (wf_ina _ _ _ (pw_b _ _ _ _ _ _ _ _ _ _ _ (pi_w _ _ _ _ _ _ _ _ _ _ _ I1)))).
      assert (IND2 : exists p, (0 <= p < zlen lp - zlen kp)%Z /\ ce n (p_Q s1) number p <> 0).
      { destruct IND1 as (p & Hp & Np). exists p. split; [exact Hp|]. intros Z0. apply Np. rewrite comb_scal, comb_delta, Z0 by auto. apply Rmult_0_r. }
      destruct (addB_step eps zero infty zero_0 junk J n m Am s1 lp lx kx kp number v true I1 (INl _ Hin0) Hv IND2 (fun _ => RV1)) as (s' & lf & E & _ & I' & _). rewrite E. cbn [wp].
      assert (V1 : ws s1 true number = ST_INACTIVE) by (apply (wf_in0 _ _ _ (pw_b _ _ _ _ _ _ _ _ _ _ _ (pi_w _ _ _ _ _ _ _ _ _ _ _ I1))), INl, Hin0).
      destruct (UPD s1 s' _ _ _ _ E V1 I') as (K & Y & ST).
      assert (CX : chgX b1 s q ST_INACTIVE s1 /\ ws s1 b1 q = ST_INACTIVE) by (destruct b1; exact CH). destruct CX as (CX & VX).
      assert (Q0 : (0 <= q)%Z) by (destruct b1, CA as (X & _); lia).
      destruct (chgX_types b1 s q _ s1 CX) as (T1 & T2). pose proof (kept_dat s s1 y1 DT T1 T2) as K1. pose proof (chgX_ws b1 s q _ s1 Q0 CX VX) as ST1.
      split; [exact (kept_trans _ _ _ K1 K)|]. left. split; [reflexivity|]. right. exists w, wA, b1, q. split; [exact EXP|]. split; [exact CA|]. split; [exact LT|]. split; [exact LEAST|]. split.
      * intros j Hj. unfold PropAuxP.yB at 1. rewrite Y. exact (EY j Hj).
      * intros b i Hi. rewrite (ST b i Hi). destruct (is_at true number b i); [reflexivity|]. exact (ST1 b i Hi).
Qed.
(** ** The theorem *)
Notation in_order := (PropIter.in_order eps zero infty).
Notation steady := (steady eps zero infty).
Definition li_set (n : Z) (Hm : Z -> Z -> R) (s : qp N) : Prop :=
  li_options eps zero infty s /\ (posdef n Hm \/ o_epsLITests (p_opts s) = 0).
Definition infeasible_code (b : bool) : returnValue := if b then RET_ADDBOUND_FAILED_INFEASIBILITY else RET_ADDCONSTRAINT_FAILED_INFEASIBILITY.

Lemma reached_in_order n m Am Hm (guard : Prop) (s s' : qp N) l0 l1 k0 k1 here : pinv n m Am s l0 l1 k0 k1 -> hdata eps zero infty n s Hm -> cwf eps zero infty n m (scr_of (N := N) s) -> Rexact n s (zlen l0 - zlen k1) l0 Hm -> guard ->
  reached eps zero infty n m Am Hm guard s s' l0 k1 here -> in_order n m Am Hm s' /\ p_opts s' = p_opts s.
Proof using.
  intros I HD CW RX G (l0' & l1' & k0' & k1' & I' & FR & V & X & _). split; [|apply FR]. exists l0', l1', k0', k1'. split; [exact I'|]. split; [exact (pframe_hdata _ _ _ _ _ _ _ FR HD)|].
  split; [exact (pframe_cwf _ _ _ _ _ _ _ FR CW)|]. now apply X.
Qed.

Theorem C70_entering n m Am Hm (s : qp N) (k : block (N := N)) : in_order n m Am Hm s -> (forall j, (0 <= j < n)%Z -> settled (wsB s j)) -> li_set n Hm s ->
  is_on (bk_st k) -> (0 <= bk_idx k < if bk_isB k then n else m)%Z -> ws s (bk_isB k) (bk_idx k) = ST_INACTIVE ->
  exists r s', p_changeActiveSet (N := N) junk k s = Ok (r, s') /\ in_order n m Am Hm s' /\ kept s s' /\ p_opts s' = p_opts s /\
    let b0 := bk_isB k in let i0 := bk_idx k in let v := bk_st k in
    ((r = SUCCESSFUL_RETURN /\ (entered n m Am b0 i0 v s s' \/ exists w wA b1 q, swapped n m Am b0 i0 v s s' w wA b1 q)) \/
     (r = infeasible_code b0 /\ undone s s' /\ exists w wA, stuck n m Am b0 i0 v s s' w wA) \/
     (r = RET_ADD_TO_ACTIVESET_FAILED /\ undone s s')).
Proof using zero_0 eps_pos J.
  intros (l0 & l1 & k0 & k1 & I & HD & CW & RX) SB ((LD & LP & LT & LR) & GD) ON RG INA. cbv zeta.
  pose proof I as [W _ _ _ _]. pose proof (Rexact_valid _ _ _ _ _ _ _ _ RX) as RV.
  assert (CF : licfg eps zero infty n m Hm l0 k1 s) by (split; [intros F; split; [exact RX|]; split; [exact CW|exact (LR F)]|auto]).
  assert (AC : is_active (bk_st k) = true) by (destruct ON as [E|E]; rewrite E; reflexivity).
  assert (MAP : forall (b : bool) (r : returnValue) (s' : qp N), bk_isB k = b -> (if b then p_addBound (N := N) junk (bk_idx k) (bk_st k) true true s else p_addConstraint (N := N) junk (bk_idx k) (bk_st k) true true s) = Ok (r, s') ->
    p_changeActiveSet (N := N) junk k s = Ok (if r =r? SUCCESSFUL_RETURN then SUCCESSFUL_RETURN else if r =r? infeasible_code b then r else RET_ADD_TO_ACTIVESET_FAILED, s')).
  { intros b r s' Eb E. unfold p_changeActiveSet. rewrite Eb. destruct ON as [V|V]; rewrite V in E; rewrite V; destruct b; rewrite E; reflexivity. }
  assert (OUT : forall r s' b, outcome n m Am b (bk_idx k) (bk_st k) s s' r (infeasible_code b) ->
    let r' := if r =r? SUCCESSFUL_RETURN then SUCCESSFUL_RETURN else if r =r? infeasible_code b then r else RET_ADD_TO_ACTIVESET_FAILED in
    ((r' = SUCCESSFUL_RETURN /\ (entered n m Am b (bk_idx k) (bk_st k) s s' \/ exists w wA b1 q, swapped n m Am b (bk_idx k) (bk_st k) s s' w wA b1 q)) \/
     (r' = infeasible_code b /\ undone s s' /\ exists w wA, stuck n m Am b (bk_idx k) (bk_st k) s s' w wA) \/
     (r' = RET_ADD_TO_ACTIVESET_FAILED /\ undone s s'))).
  { intros r s' b [(-> & O)|[(-> & O)|(N1 & N2 & O)]] r'; unfold r'.
    - left. split; [reflexivity|exact O].
    - right. left. split; [|exact O]. destruct b; reflexivity.
    - right. right. split; [|exact O]. destruct (r =r? SUCCESSFUL_RETURN) eqn:E1; [apply rv_eqb_eq in E1; contradiction|]. destruct (r =r? infeasible_code b) eqn:E2; [apply rv_eqb_eq in E2; contradiction|reflexivity]. }
  destruct (bk_isB k) eqn:Eb.
  - assert (Hin : In (bk_idx k) l0) by (apply (wf_in0 _ _ _ (pw_b _ _ _ _ _ _ _ _ _ _ _ W)); rewrite (pw_n _ _ _ _ _ _ _ _ _ _ _ W : st_n (p_bounds s) = n); auto).
    destruct (wp_inv _ _ (addBound_LI eps zero infty zero_0 junk J n m Am Hm s l0 l1 k0 k1 (bk_idx k) (bk_st k) I HD eps_pos RV CF Hin AC)) as ((r, s') & E & RE).
    pose proof (added_B n m Am Hm s l0 l1 k0 k1 (bk_idx k) (bk_st k) I HD RV CF SB Hin AC) as AD. rewrite E in AD. destruct AD as (KP & O).
    destruct (reached_in_order _ _ _ _ _ _ _ _ _ _ _ _ I HD CW RX GD RE) as (IO & EO).
    eexists _, s'. split; [exact (MAP true r s' eq_refl E)|]. split; [exact IO|]. split; [exact KP|]. split; [exact EO|]. exact (OUT r s' true O).
  - assert (Hin : In (bk_idx k) k0) by (apply (wf_in0 _ _ _ (pw_c _ _ _ _ _ _ _ _ _ _ _ W)); rewrite (pw_m _ _ _ _ _ _ _ _ _ _ _ W : st_n (p_cons s) = m); auto).
    destruct (wp_inv _ _ (addConstraint_LI eps zero infty zero_0 junk J n m Am Hm s l0 l1 k0 k1 (bk_idx k) (bk_st k) I HD eps_pos RV CF Hin AC)) as ((r, s') & E & RE).
    pose proof (added_C n m Am Hm s l0 l1 k0 k1 (bk_idx k) (bk_st k) I HD RV CF SB Hin AC) as AD. rewrite E in AD. destruct AD as (KP & O).
    destruct (reached_in_order _ _ _ _ _ _ _ _ _ _ _ _ I HD CW RX GD RE) as (IO & EO).
    eexists _, s'. split; [exact (MAP false r s' eq_refl E)|]. split; [exact IO|]. split; [exact KP|]. split; [exact EO|]. exact (OUT r s' false O).
Qed.

(** ** The iterate stays optimal *)
(** the values, limits and types of bounds and constraints *)
Definition val (n : Z) (Am : Z -> Z -> R) (x : Z -> R) (b : bool) (i : Z) : R := if b then x i else rsum 0 n (fun j => Am i j * x j).
Definition lo (s : qp N) (b : bool) (i : Z) : R := if b then lB s i else lC s i.
Definition up (s : qp N) (b : bool) (i : Z) : R := if b then uB s i else uC s i.
Definition ty (s : qp N) (b : bool) (i : Z) : SubjectToType := if b then tyB s i else tyC s i.
Definition at_its_limit (del : R) (n : Z) (Am : Z -> Z -> R) (s : qp N) (b : bool) (i : Z) (v : SubjectToStatus) : Prop :=
  (v = ST_LOWER -> Rabs (val n Am (xB s) b i - lo s b i) <= del) /\ (v = ST_UPPER -> Rabs (val n Am (xB s) b i - up s b i) <= del).
Definition in_range (n m : Z) (b : bool) (i : Z) : Prop := (0 <= i < if b then n else m)%Z.

Lemma is_at_spec b0 i0 b i : is_at b0 i0 b i = true <-> b = b0 /\ i = i0.
Proof using. unfold is_at. rewrite andb_true_iff, Z.eqb_eq. destruct b, b0; cbn; split; intros (A & B); try discriminate; auto. Qed.

Lemma steady_changed del n m Am Hm (s s' : qp N) (v : bool -> Z -> SubjectToStatus) (y' : Z -> R) : in_order n m Am Hm s' -> steady del n m Hm Am s -> kept s s' -> statuses s s' v ->
  (forall j, (0 <= j < n + m)%Z -> yB s' j = y' j) ->
  (forall b i, in_range n m b i -> settled (v b i)) ->
  (forall i, (0 <= i < n)%Z -> y' i + rsum 0 m (fun k => Am k i * y' (n + k)%Z) = yB s i + rsum 0 m (fun k => Am k i * yB s (n + k)%Z)) ->
  (forall b i, in_range n m b i -> at_its_limit del n Am s b i (v b i) /\ (v b i = ST_INACTIVE -> y' (posn n b i) = 0)) ->
  (forall i, (0 <= i < m)%Z -> wsC s' i <> ST_INACTIVE -> tyC s i = ST_UNBOUNDED -> wsC s i <> ST_INACTIVE) ->
  steady del n m Hm Am s'.
Proof using.
  intros IO [[] _ _ (M & HA & AS) SB SC GR (LB & LC) AX] ((K1 & K2 & K3 & K4) & (K5 & K6 & K7 & K8 & K9 & K10) & K11 & K12 & K13 & K14) ST EY SE GR' LIM UNB.
  destruct IO as (l0 & l1 & k0 & k1 & I & _). pose proof I as [W _ Ly _ _].
  assert (X : forall j, xB s' j = xB s j) by (intros j; unfold PropAuxP.xB; now rewrite K1).
  assert (L : forall j, lB s' j = lB s j) by (intros j; unfold PropAuxP.lB; now rewrite K3). assert (U : forall j, uB s' j = uB s j) by (intros j; unfold PropAuxP.uB; now rewrite K4).
  assert (LA : forall j, lC s' j = lC s j) by (intros j; unfold PropAuxP.lC; now rewrite K6). assert (UA : forall j, uC s' j = uC s j) by (intros j; unfold PropAuxP.uC; now rewrite K7).
  assert (AC : forall k, act eps zero infty n Am s' k = act eps zero infty n Am s k) by (intros k; unfold act; apply rsum_ext; intros; now rewrite X).
  assert (TY : forall k, tyC s' k = tyC s k) by (intros k; unfold PropAuxP.tyC; now rewrite K12).
  constructor.
  - constructor; auto; try (rewrite ?K1, ?K2, ?K3, ?K4, ?K6, ?K7, ?K8, ?K9, ?K10; assumption); [now rewrite K13|now rewrite K14].
  - exists l0, l1. apply W.
  - exists k0, k1. apply W.
  - exists M. split; [now rewrite K5|exact AS].
  - intros i Hi. change (settled (ws s' true i)). rewrite (ST true i) by lia. apply (SE true i Hi).
  - intros i Hi. change (settled (ws s' false i)). rewrite (ST false i) by lia. apply (SE false i Hi).
  - intros i Hi. rewrite (EY i) by lia. rewrite (rsum_ext 0 m _ (fun k => Am k i * y' (n + k)%Z)) by (intros k Hk; rewrite EY by lia; reflexivity). rewrite GR' by exact Hi. rewrite K2, <- GR by exact Hi.
    f_equal. unfold matvec. apply rsum_ext. intros j Hj. now rewrite X.
  - split; intros i Hi.
    + destruct (LIM true i Hi) as ((A & B) & C). pose proof (ST true i ltac:(lia)) as E. cbn [ws] in E. rewrite E, X, L, U, (EY i) by lia. split; [exact A|]. split; [exact B|exact C].
    + destruct (LIM false i Hi) as ((A & B) & C). pose proof (ST false i ltac:(lia)) as E. cbn [ws] in E. rewrite E, AC, LA, UA, (EY (n + i)%Z) by lia. split; [exact A|]. split; [exact B|exact C].
  - intros k Hk C. rewrite AC, K8. unfold slack_right. rewrite AC, K9, K10, LA, UA. apply AX; [exact Hk|]. rewrite TY in C. destruct C as [C|C]; [|right; exact C].
    destruct (tyC s k) eqn:T; try (right; discriminate). left. apply (UNB k Hk C T).
Qed.

(** nothing changes in the gradient of the Lagrangian when the entering one is expressed exactly *)
Theorem C70_stays_optimal del n m Am Hm (s s' : qp N) b0 i0 v : in_order n m Am Hm s' -> steady del n m Hm Am s -> kept s s' -> in_range n m b0 i0 -> is_on v -> ws s b0 i0 = ST_INACTIVE ->
  0 < o_epsDen (p_opts s) -> ty s b0 i0 <> ST_UNBOUNDED -> at_its_limit del n Am s b0 i0 v ->
  entered n m Am b0 i0 v s s' \/
  (depends n m Am s (row Am b0 i0) \/ (o_epsLITests (p_opts s) = 0 /\ plainH (p_b s) = true)) /\ (exists w wA b1 q, swapped n m Am b0 i0 v s s' w wA b1 q) ->
  steady del n m Hm Am s'.
Proof using.
  intros IO SD KP RG ON INA ED TU LM O. pose proof SD as [[] _ _ _ SB SC _ (LB & LC) _].
  assert (SEv : settled v) by (destruct ON as [-> | ->]; unfold settled; auto).
  assert (SE : forall b i, in_range n m b i -> settled (ws s b i)) by (intros [|] i Hi; [apply SB|apply SC]; exact Hi).
  assert (LIM : forall b i, in_range n m b i -> at_its_limit del n Am s b i (ws s b i) /\ (ws s b i = ST_INACTIVE -> yB s (posn n b i) = 0)).
  { intros [|] i Hi; [destruct (LB i Hi) as (A & B & C)|destruct (LC i Hi) as (A & B & C)]; (split; [split; [exact A|exact B]|exact C]). }
  assert (UNB : forall v', statuses s s' v' -> (forall b i, in_range n m b i -> ws s b i = ST_INACTIVE -> is_at b0 i0 b i = false -> v' b i = ST_INACTIVE) ->
    forall i, (0 <= i < m)%Z -> wsC s' i <> ST_INACTIVE -> tyC s i = ST_UNBOUNDED -> wsC s i <> ST_INACTIVE).
  { intros v' ST V i Hi A T E. pose proof (ST false i ltac:(lia)) as F. cbn [ws] in F. rewrite F in A. apply A. apply V; [exact Hi|exact E|].
    destruct (is_at b0 i0 false i) eqn:X; [|reflexivity]. apply is_at_spec in X as (<- & <-). contradiction. }
  destruct O as [(_ & Y & ST)|(D & w & wA & b1 & q & (OA & COMB) & CA & _ & _ & EY & ST)].
  - apply (steady_changed del n m Am Hm s s' _ (yB s) IO SD KP ST); auto.
    + intros j Hj. unfold PropAuxP.yB. now rewrite Y.
    + intros b i Hi. destruct (is_at b0 i0 b i); auto.
    + intros b i Hi. destruct (is_at b0 i0 b i) eqn:E; [|now apply LIM]. apply is_at_spec in E as (-> & ->). split; [exact LM|]. destruct ON as [-> | ->]; discriminate.
    + apply (UNB _ ST). intros b i Hi E ->. exact E.
  - specialize (COMB D). set (t := leaves_at n s w wA b1 q) in *. destruct OA as (OB & OC).
    set (W := fun j => if (j <? n)%Z then w j else wA (j - n)%Z).
    assert (R0 : (0 <= posn n b0 i0 < n + m)%Z) by (unfold in_range in RG; destruct b0; cbn [posn]; lia).
    assert (W0 : W (posn n b0 i0) = 0).
    { unfold W. unfold in_range in RG. destruct b0; cbn [posn] in *.
      - destruct (Z.ltb_spec i0 n); [|lia]. apply OB; [exact RG|]. cbn [ws] in INA. now rewrite INA.
      - destruct (Z.ltb_spec (n + i0) n); [lia|]. replace (n + i0 - n)%Z with i0 by lia. apply OC; [exact RG|]. cbn [ws] in INA. now rewrite INA. }
    assert (Y0 : yB s (posn n b0 i0) = 0) by (apply LIM; auto).
    assert (EY' : forall j, (0 <= j < n + m)%Z -> yB s' j = yB s j - t * W j + (if (j =? posn n b0 i0)%Z then sgn v * t else 0)).
    { intros j Hj. rewrite (EY j Hj). destruct (Z.eqb_spec j (posn n b0 i0)) as [->|]; [rewrite Y0, W0; ring|unfold W; ring]. }
    apply (steady_changed del n m Am Hm s s' _ (fun j => yB s j - t * W j + (if (j =? posn n b0 i0)%Z then sgn v * t else 0)) IO SD KP ST EY').
    + intros b i Hi. destruct (is_at b0 i0 b i); auto. destruct (is_at b1 q b i); [left; reflexivity|auto].
    + intros i Hi. pose proof (COMB i Hi) as C.
      rewrite (rsum_ext 0 m _ (fun k => Am k i * yB s (n + k)%Z + (- t) * (Am k i * wA k) + (if (n + k =? posn n b0 i0)%Z then sgn v * t * Am k i else 0))).
      2:{ intros k Hk. unfold W. destruct (Z.ltb_spec (n + k) n); [lia|]. replace (n + k - n)%Z with k by lia. destruct (_ =? _)%Z; ring. }
      rewrite !rsum_plus, rsum_scal. unfold W. destruct (Z.ltb_spec i n); [|lia].
      assert (E : (if (i =? posn n b0 i0)%Z then sgn v * t else 0) + rsum 0 m (fun k => if (n + k =? posn n b0 i0)%Z then sgn v * t * Am k i else 0) = t * (sgn v * row Am b0 i0 i)).
      { unfold in_range in RG. destruct b0; cbn [posn row].
        - rewrite rsum_0; [destruct (i =? i0)%Z; ring|]. intros k Hk. destruct (Z.eqb_spec (n + k) i0); [lia|reflexivity].
        - destruct (Z.eqb_spec i (n + i0)); [lia|]. rewrite (rsum_delta 0 m i0); [rewrite Z.eqb_refl; ring|exact RG|]. intros k Hk NE. destruct (Z.eqb_spec (n + k) (n + i0)); [lia|reflexivity]. }
      rewrite C in E. lra.
    + intros b i Hi. destruct (is_at b0 i0 b i) eqn:E.
      { apply is_at_spec in E as (-> & ->). split; [exact LM|]. destruct ON as [-> | ->]; discriminate. }
      assert (NP : posn n b i <> posn n b0 i0).
      { intros P. assert (b = b0 /\ i = i0) as X; [|apply is_at_spec in X; congruence]. unfold in_range in *. destruct b, b0; cbn [posn] in P; (split; [try reflexivity; lia|lia]). }
      assert (PR : (0 <= posn n b i < n + m)%Z) by (unfold in_range in Hi; destruct b; cbn [posn]; lia).
      assert (WI : W (posn n b i) = if b then w i else wA i).
      { unfold W. unfold in_range in Hi. destruct b; cbn [posn]; [destruct (Z.ltb_spec i n); [reflexivity|lia]|]. destruct (Z.ltb_spec (n + i) n); [lia|]. now replace (n + i - n)%Z with i by lia. }
      destruct (Z.eqb_spec (posn n b i) (posn n b0 i0)); [contradiction|]. rewrite WI.
      destruct (is_at b1 q b i) eqn:E1.
      * apply is_at_spec in E1 as (-> & ->). split; [split; discriminate|]. intros _. unfold t, PropExch.leaves_at. destruct b1; cbn [posn]; destruct CA as (_ & _ & BL); apply (blocks_nz _ _ _ _ _ _ ED) in BL; field; exact BL.
      * destruct (LIM b i Hi) as (A & B). split; [exact A|]. intros Ei. rewrite (B Ei). assert (Z0 : (if b then w i else wA i) = 0) by (unfold in_range in Hi; destruct b; [apply OB|apply OC]; auto; cbn [ws] in Ei; now rewrite Ei). rewrite Z0. ring.
    + apply (UNB _ ST). intros b i Hi E ->. destruct (is_at b1 q b i); [reflexivity|exact E].
Qed.

(** ** The multipliers keep their signs *)
Definition signed (del : R) (ty : SubjectToType) (v : SubjectToStatus) (y : R) : Prop := ty <> ST_EQUALITY -> (v = ST_LOWER -> - del <= y) /\ (v = ST_UPPER -> y <= del).
Definition signs (del : R) (n m : Z) (s : qp N) : Prop := forall b i, in_range n m b i -> signed del (ty s b i) (ws s b i) (yB s (posn n b i)).
Definition cf (w wA : Z -> R) (b : bool) (i : Z) : R := if b then w i else wA i.

Lemma cand_iff n m (s : qp N) w wA b i : cand n m s w wA b i <-> in_range n m b i /\ is_active (ws s b i) = true /\ blocks (ty s b i) (ws s b i) (yB s (posn n b i)) (cf w wA b i) (o_epsNum (p_opts s)) (o_epsDen (p_opts s)).
Proof using. destruct b; reflexivity. Qed.
Lemma leaves_eq n (s : qp N) w wA b i : leaves_at n s w wA b i = yB s (posn n b i) / cf w wA b i.
Proof using. destruct b; reflexivity. Qed.
Lemma posn_inj n m b i b' i' : in_range n m b i -> in_range n m b' i' -> posn n b i = posn n b' i' -> b = b' /\ i = i'.
Proof using. unfold in_range. destruct b, b'; cbn [posn]; intros; (split; [try reflexivity; lia|lia]). Qed.
Lemma posn_range n m b i : (0 <= n)%Z -> (0 <= m)%Z -> in_range n m b i -> (0 <= posn n b i < n + m)%Z.
Proof using. unfold in_range. destruct b; cbn [posn]; lia. Qed.
Lemma cf_eq n m w wA b i : in_range n m b i -> (if (posn n b i <? n)%Z then w (posn n b i) else wA (posn n b i - n)%Z) = cf w wA b i.
Proof using. unfold in_range. destruct b; cbn [posn cf]; intros H; [destruct (Z.ltb_spec i n); [reflexivity|lia]|]. destruct (Z.ltb_spec (n + i) n); [lia|]. now replace (n + i - n)%Z with i by lia. Qed.
Lemma cand_time n m (s : qp N) w wA b i : signs 0 n m s -> 0 < o_epsDen (p_opts s) -> cand n m s w wA b i -> 0 <= leaves_at n s w wA b i.
Proof using.
  intros SG ED C. apply cand_iff in C as (Hi & AC & NE & BL). rewrite leaves_eq. destruct (SG b i Hi NE) as (SL & SU).
  assert (D : forall a c : R, c <> 0 -> 0 <= a * c -> 0 <= a / c).
  { intros a c Hc H. replace (a / c) with (a * c * (/ c * / c)) by (field; exact Hc). apply Rmult_le_pos; [exact H|]. destruct (Rlt_le_dec 0 (/ c)); nra. }
  destruct BL as [([V | V] & A & _)|(V & A & _)].
  - pose proof (SL V). apply D; [lra|nra].
  - rewrite V in AC. discriminate.
  - pose proof (SU V). apply D; [lra|nra].
Qed.

Theorem C70_signs n m Am (s s' : qp N) b0 i0 v w wA b1 q : (0 <= n)%Z -> (0 <= m)%Z -> in_range n m b0 i0 -> is_on v -> signs 0 n m s -> o_epsNum (p_opts s) <= 0 -> 0 < o_epsDen (p_opts s) ->
  swapped n m Am b0 i0 v s s' w wA b1 q ->
  let t := leaves_at n s w wA b1 q in
  0 <= t /\ yB s' (posn n b0 i0) = sgn v * t /\ ws s' b0 i0 = v /\
  (forall b i, in_range n m b i -> signed (t * o_epsDen (p_opts s)) (ty s b i) (ws s' b i) (yB s' (posn n b i))).
Proof using.
  intros N0 M0 R0 ON SG EN ED (_ & CA & _ & MIN & EX & ST) t.
  assert (T0 : 0 <= t) by exact (cand_time _ _ _ _ _ _ _ SG ED CA).
  assert (Y0 : yB s' (posn n b0 i0) = sgn v * t) by (rewrite (EX _ (posn_range _ _ _ _ N0 M0 R0)), Z.eqb_refl; reflexivity).
  assert (NN : forall b i, in_range n m b i -> (0 <= i)%Z) by (unfold in_range; intros [|] i; lia).
  assert (V0 : ws s' b0 i0 = v) by (rewrite (ST b0 i0 (NN _ _ R0)); unfold is_at; rewrite Bool.eqb_reflx, Z.eqb_refl; reflexivity).
  split; [exact T0|]. split; [exact Y0|]. split; [exact V0|]. intros b i Hi NE.
  assert (TE : 0 <= t * o_epsDen (p_opts s)) by nra.
  pose proof (ST b i (NN _ _ Hi)) as Ei. cbv beta in Ei. destruct (is_at b0 i0 b i) eqn:E0.
  { apply is_at_spec in E0 as (-> & ->). rewrite V0, Y0. destruct ON as [-> | ->]; split; intros V; try discriminate V; [change (sgn ST_LOWER) with 1|change (sgn ST_UPPER) with (-1)]; lra. }
  destruct (is_at b1 q b i) eqn:E1; [rewrite Ei; split; discriminate|].
  rewrite Ei. destruct (SG b i Hi NE) as (SL & SU). rewrite (EX _ (posn_range _ _ _ _ N0 M0 Hi)), (cf_eq n m w wA b i Hi).
  destruct (Z.eqb_spec (posn n b i) (posn n b0 i0)) as [P|P]; [apply (posn_inj n m) in P as P; auto; apply is_at_spec in P; congruence|].
  fold t. assert (CD : forall c, blocks (ty s b i) (ws s b i) (yB s (posn n b i)) (cf w wA b i) (o_epsNum (p_opts s)) (o_epsDen (p_opts s)) -> is_active (ws s b i) = true -> c = yB s (posn n b i) / cf w wA b i -> t <= c).
  { intros c BL AC ->. rewrite <- leaves_eq. apply MIN. apply cand_iff. auto. }
  split; intros V; rewrite V in *.
  - specialize (SL eq_refl). destruct (Rle_lt_dec (o_epsDen (p_opts s)) (cf w wA b i)) as [L|L]; [|nra].
    assert (T : t <= yB s (posn n b i) / cf w wA b i) by (apply CD; auto; split; [exact NE|left; split; [left; reflexivity|lra]]).
    apply (Rmult_le_compat_r (cf w wA b i)) in T; [|lra]. replace (yB s (posn n b i) / cf w wA b i * cf w wA b i) with (yB s (posn n b i)) in T by (field; lra). lra.
  - specialize (SU eq_refl). destruct (Rle_lt_dec (o_epsDen (p_opts s)) (- cf w wA b i)) as [L|L]; [|nra].
    assert (T : t <= yB s (posn n b i) / cf w wA b i) by (apply CD; auto; split; [exact NE|right; split; [reflexivity|lra]]).
    apply (Rmult_le_compat_r (- cf w wA b i)) in T; [|lra]. replace (yB s (posn n b i) / cf w wA b i * - cf w wA b i) with (- yB s (posn n b i)) in T by (field; lra). lra.
Qed.

(** ** The verdict that nothing is feasible *)
(** the coefficients are zero or far from it, and the multipliers are far from jumping *)
Definition clear_cut (n m : Z) (s : qp N) (w wA : Z -> R) : Prop :=
  (forall b i, in_range n m b i -> ty s b i <> ST_EQUALITY -> (ws s b i = ST_LOWER -> 0 < cf w wA b i -> o_epsDen (p_opts s) <= cf w wA b i) /\ (ws s b i = ST_UPPER -> cf w wA b i < 0 -> o_epsDen (p_opts s) <= - cf w wA b i)) /\
  (forall b i, cand n m s w wA b i -> leaves_at n s w wA b i < o_maxDualJump (p_opts s)).
Definition feasible (n m : Z) (Am : Z -> Z -> R) (l u : bool -> Z -> R) (z : Z -> R) : Prop := forall b i, in_range n m b i -> l b i <= val n Am z b i <= u b i.

(** the limits [l] and [u] are reached by a point [p] that keeps the active ones active but violates the entering one *)
Definition beyond (n m : Z) (Am : Z -> Z -> R) (b0 : bool) (i0 : Z) (v : SubjectToStatus) (s : qp N) (l u : bool -> Z -> R) (p : Z -> R) : Prop :=
  (forall b i, in_range n m b i -> (ws s b i = ST_LOWER -> val n Am p b i = l b i) /\ (ws s b i = ST_UPPER -> val n Am p b i = u b i) /\ (is_on (ws s b i) -> ty s b i = ST_EQUALITY -> l b i = u b i)) /\
  (v = ST_LOWER -> val n Am p b0 i0 < l b0 i0) /\ (v = ST_UPPER -> u b0 i0 < val n Am p b0 i0).

Lemma combined n m Am (a w wA z : Z -> R) : combines n m Am a w wA -> rsum 0 n (fun j => a j * z j) = rsum 0 n (fun j => w j * z j) + rsum 0 m (fun k => wA k * rsum 0 n (fun j => Am k j * z j)).
Proof using.
  intros C. rewrite (rsum_ext 0 n _ (fun j => w j * z j + rsum 0 m (fun k => wA k * (Am k j * z j)))).
  2:{ intros j Hj. rewrite (C j Hj), Rmult_plus_distr_r. f_equal. rewrite Rmult_comm, <- rsum_scal. apply rsum_ext. intros; ring. }
  rewrite rsum_plus. f_equal. rewrite rsum_swap. apply rsum_ext. intros k Hk. rewrite <- rsum_scal. reflexivity.
Qed.

Theorem C70_infeasible n m Am (s s' : qp N) b0 i0 v w wA l u p : in_range n m b0 i0 -> is_on v -> (forall b i, in_range n m b i -> settled (ws s b i)) ->
  depends n m Am s (row Am b0 i0) \/ (o_epsLITests (p_opts s) = 0 /\ plainH (p_b s) = true) ->
  signs 0 n m s -> o_epsNum (p_opts s) <= 0 -> clear_cut n m s w wA ->
  stuck n m Am b0 i0 v s s' w wA -> beyond n m Am b0 i0 v s l u p -> forall z, ~ feasible n m Am l u z.
Proof using.
  intros R0 ON SE D SG EN (CC & JP) (((OB & OC) & CO) & NO & _) (BY & VL & VU) z FE. specialize (CO D).
  assert (TERM : forall b i, in_range n m b i -> cf w wA b i * (val n Am z b i - val n Am p b i) <= 0).
  { intros b i Hi. destruct (BY b i Hi) as (PL & PU & PE). pose proof (FE b i Hi) as F.
    assert (NC : ~ cand n m s w wA b i) by (intros C; pose proof (NO b i C); pose proof (JP b i C); lra).
    assert (Z0 : is_active (ws s b i) = false -> cf w wA b i = 0) by (unfold in_range in Hi; destruct b; intros; [apply OB|apply OC]; auto).
    destruct (SE b i Hi) as [V|[V|V]].
    - rewrite Z0 by (rewrite V; reflexivity). lra.
    - rewrite (PL V). destruct (stt_eq_dec (ty s b i) ST_EQUALITY) as [E|E]; [pose proof (PE (or_introl V) E) as Q; replace (val n Am z b i) with (l b i) by lra; lra|].
      assert (cf w wA b i <= 0); [|nra]. destruct (Rle_lt_dec (cf w wA b i) 0) as [|P]; [assumption|]. exfalso. apply NC. apply cand_iff. split; [exact Hi|]. split; [rewrite V; reflexivity|]. split; [exact E|].
      left. split; [left; exact V|]. split; [apply (CC b i Hi E); assumption|]. pose proof (proj1 (SG b i Hi E) V). lra.
    - rewrite (PU V). destruct (stt_eq_dec (ty s b i) ST_EQUALITY) as [E|E]; [pose proof (PE (or_intror V) E) as Q; replace (val n Am z b i) with (u b i) by lra; lra|].
      assert (0 <= cf w wA b i); [|nra]. destruct (Rle_lt_dec 0 (cf w wA b i)) as [|P]; [assumption|]. exfalso. apply NC. apply cand_iff. split; [exact Hi|]. split; [rewrite V; reflexivity|]. split; [exact E|].
      right. split; [exact V|]. split; [apply (CC b i Hi E); assumption|]. pose proof (proj2 (SG b i Hi E) V). lra. }
  set (d := fun j => z j - p j).
  assert (VD : forall b i, in_range n m b i -> val n Am z b i - val n Am p b i = val n Am d b i).
  { intros [|] i Hi; unfold d; cbn [val]; [reflexivity|]. rewrite <- rsum_minus. apply rsum_ext. intros; ring. }
  pose proof (combined n m Am _ w wA d CO) as E. cbv beta in E.
  assert (NEG : forall lo hi f, (forall k, (lo <= k < hi)%Z -> f k <= 0) -> rsum lo hi f <= 0).
  { intros lo hi f Hf. rewrite <- (rsum_0 lo hi (fun _ => 0)) by reflexivity. apply lsum_le. intros k Hk. apply Hf. now apply In_zseq. }
  assert (L1 : rsum 0 n (fun j => w j * d j) <= 0) by (apply NEG; intros j Hj; pose proof (TERM true j Hj) as T; rewrite (VD true j Hj) in T; exact T).
  assert (L2 : rsum 0 m (fun k => wA k * rsum 0 n (fun j => Am k j * d j)) <= 0) by (apply NEG; intros k Hk; pose proof (TERM false k Hk) as T; rewrite (VD false k Hk) in T; exact T).
  assert (E0 : rsum 0 n (fun j => sgn v * row Am b0 i0 j * d j) = sgn v * val n Am d b0 i0).
  { rewrite (rsum_ext 0 n _ (fun j => sgn v * (row Am b0 i0 j * d j))) by (intros; ring). rewrite rsum_scal. f_equal. unfold in_range in R0. destruct b0; cbn [val row]; [|reflexivity].
    rewrite (rsum_delta 0 n i0); [rewrite Z.eqb_refl; ring|exact R0|]. intros k Hk NE. destruct (Z.eqb_spec k i0); [lia|ring]. }
  rewrite E0 in E. rewrite <- (VD b0 i0 R0) in E. pose proof (FE b0 i0 R0) as F.
  destruct ON as [-> | ->]; [change (sgn ST_LOWER) with 1 in E; specialize (VL eq_refl)|change (sgn ST_UPPER) with (-1) in E; specialize (VU eq_refl)]; lra.
Qed.
End Enter.

(** ** Examples *)
(** the hypotheses of [C70_entering] are met *)
Example C70_ex : exists (s : qp tqN) (k : block (N := tqN)), PropIter.in_order tq_eps 0 tq_inf 2 1 tq_Am tq_Hm s /\ (forall j, (0 <= j < 2)%Z -> settled (PropAuxP.wsB tq_eps 0 tq_inf s j)) /\ li_set tq_eps 0 tq_inf 2 tq_Hm s /\
  is_on (bk_st k) /\ (0 <= bk_idx k < if bk_isB k then 2 else 1)%Z /\ ws tq_eps 0 tq_inf s (bk_isB k) (bk_idx k) = ST_INACTIVE.
Proof.
  destruct (C47_ready tq_eps 0 tq_inf tq_junk eq_refl tq_junk_ok 2 1 HST_UNKNOWN optDefault tq_H [0; 0] tq_A None None None None) as (s & E & RD & V & C & O & HT & FX & AC & _ & IB & IC); try (exact I || lia || reflexivity || discriminate).
  { intros i j Hi Hj. assert (i = 0 \/ i = 1)%Z as [->| ->] by lia; assert (j = 0 \/ j = 1)%Z as [->| ->] by lia; reflexivity. }
  destruct (C48_first_factorisation tq_eps 0 tq_inf tq_junk eq_refl tq_eps_pos tq_junk_ok 2 1 tq_Am tq_Hm s RD tq_posdef) as (s0 & s1 & E0 & L0 & E1 & X1 & O1 & V1 & C1 & _ & K1 & B1 & T1); [unfold plainH, is_hst; rewrite HT; reflexivity|].
  assert (GS : forall (b : subjectTo) i, st_getStatus b i = Ok ST_INACTIVE -> (0 <= i < st_n b)%Z -> zs (st_status b) i = ST_INACTIVE).
  { intros b i Eg' Hi. unfold st_getStatus in Eg'. destruct (Z.leb_spec 0 i); [|lia]. destruct (Z.ltb_spec i (st_n b)); [|lia]. cbn [andb] in Eg'. apply rd_inv in Eg' as (_ & Eg'). apply Eg'. }
  exists s1, (mkBlock (N := tqN) 0 0%Z ST_LOWER false). split; [|split; [|split; [|split; [|split]]]].
  - exact (exec_in_order tq_eps 0 tq_inf eq_refl tq_eps_pos tq_junk tq_junk_ok 2 1 tq_Am tq_Hm s s0 [OChol] s1 RD E0 X1).
  - intros j Hj. left. unfold PropAuxP.wsB. rewrite B1. apply (GS (p_bounds s)); [apply IB; exact Hj|]. change (st_n (p_bounds s)) with (pV s). lia.
  - split; [|left; exact tq_posdef]. unfold li_options. rewrite O1, O. pose proof tq_eps_pos. split; [reflexivity|]. split; [|split].
    + change (0 <= Rlit 1 5 * tq_eps). change (Rlit 1 5) with (IZR (1 * 10 ^ 5)). change (1 * 10 ^ 5)%Z with 100000%Z. lra.
    + change (0 < Rlit 1 3 * tq_eps). change (Rlit 1 3) with (IZR (1 * 10 ^ 3)). change (1 * 10 ^ 3)%Z with 1000%Z. lra.
    + intros _. vm_compute. discriminate.
  - left. reflexivity.
  - cbn. lia.
  - cbn [ws bk_isB bk_idx]. unfold PropAuxP.wsC. rewrite K1. apply (GS (p_cons s)); [apply IC; lia|]. change (st_n (p_cons s)) with (pC s). lia.
Qed.
