(** Drift correction (C41) and ramping (C42) in the class with constraints:
    both replace data of the current problem so that the current iterate is
    optimal for it. *)
From Coq Require Import QArith.
From Verif Require Kkt.
From Verif Require Import Base Types Num Options Indexlist IndexlistProofs Loops RSum LinSpec SafeLib SubjectTo SubjectToProofs SubjectToProofs2
  Flipper PropFlipper Matrices MatLib MatSafe CsLib PropDense PropSparse PropSparse2 LinAlg PropLinAlg QProblemB QPBSafe QPBSafe2 QPBEx QPBX1 QPBX2 QPBX5 QPBX11 PropHess PropAux
  QProblem QProblem2 QProblem3 QProblem4 QProblem5 QPFrame PropNull QProblem6 QPFrame2 PropSQ.
Local Open Scope R_scope.

Section AuxP.
Variables eps zero infty : R.
Hypothesis zero_b : 0 <= zero < 1.
Notation N := (RNumT eps zero infty).
Notation arr := (list R).

(** ** Specification *)
Definition tyB (s : qp N) (i : Z) : SubjectToType := zt (st_type (p_bounds s)) i.
Definition tyC (s : qp N) (i : Z) : SubjectToType := zt (st_type (p_cons s)) i.
Definition wsB (s : qp N) (i : Z) : SubjectToStatus := zs (st_status (p_bounds s)) i.
Definition wsC (s : qp N) (i : Z) : SubjectToStatus := zs (st_status (p_cons s)) i.
Definition xB (s : qp N) (i : Z) : R := zn 0 (q_x (p_b s)) i.
Definition yB (s : qp N) (i : Z) : R := zn 0 (q_y (p_b s)) i.
Definition lB (s : qp N) (i : Z) : R := zn 0 (q_lb (p_b s)) i.
Definition uB (s : qp N) (i : Z) : R := zn 0 (q_ub (p_b s)) i.
Definition lC (s : qp N) (i : Z) : R := zn 0 (p_lbA s) i.
Definition uC (s : qp N) (i : Z) : R := zn 0 (p_ubA s) i.
(** the activity of constraint [i] *)
Definition act (n : Z) (Am : Z -> Z -> R) (s : qp N) (i : Z) : R := rsum 0 n (fun j => Am i j * xB s j).

(** the index lists, the Hessian and the constraint matrix of the object are in
    order, and [Ax] holds the activities *)
Record held (n m : Z) (Hm Am : Z -> Z -> R) (s : qp N) : Prop := {
  h_sz : sized eps zero infty n m s;
  h_B : exists l0 l1, st_wf (p_bounds s) l0 l1;
  h_C : exists k0 k1, st_wf (p_cons s) k0 k1;
  h_H : hess eps zero infty n (p_b s) Hm;
  h_A : exists M, p_A s = Some M /\ astored eps zero infty m n M Am;
  h_Ax : forall i, (0 <= i < m)%Z -> zn 0 (p_Ax s) i = act n Am s i
}.
(** the stored distances of constraint [i] from its limits are right *)
Definition slack_right (n : Z) (Am : Z -> Z -> R) (s : qp N) (i : Z) : Prop :=
  zn 0 (p_Ax_l s) i = act n Am s i - lC s i /\ zn 0 (p_Ax_u s) i = uC s i - act n Am s i.
(** x lies on the limits in the working set, and whatever is not in the working
    set has a zero multiplier *)
Definition on_limits (n m : Z) (Am : Z -> Z -> R) (s : qp N) : Prop :=
  (forall i, (0 <= i < n)%Z -> (wsB s i = ST_LOWER -> xB s i = lB s i) /\ (wsB s i = ST_UPPER -> xB s i = uB s i) /\ (wsB s i = ST_INACTIVE -> yB s i = 0)) /\
  (forall i, (0 <= i < m)%Z -> (wsC s i = ST_LOWER -> act n Am s i = lC s i) /\ (wsC s i = ST_UPPER -> act n Am s i = uC s i) /\ (wsC s i = ST_INACTIVE -> yB s (n + i) = 0)).
(** everything but limits, multipliers, gradient, stored distances and the ramp offset is the same *)
Definition same_rest (s s' : qp N) : Prop := exists lb ub y g lbA ubA Al Au off,
  s' = up_b (N := N) (fun b => set_q_rampOffset (N := N) off (set_q_g (N := N) g (set_q_y (N := N) y (set_q_ub (N := N) ub (set_q_lb (N := N) lb b)))))
         (set_p_Ax_u (N := N) Au (set_p_Ax_l (N := N) Al (set_p_ubA (N := N) ubA (set_p_lbA (N := N) lbA s)))).

(** ** Loops *)
Definition len5 (n m : Z) (a b c d y : arr) : Prop := zlen a = m /\ zlen b = m /\ zlen c = m /\ zlen d = m /\ zlen y = (n + m)%Z.
Lemma loopB n k (body : Z -> arr * arr * arr -> res (arr * arr * arr)) (a b y : arr) (Q : Z -> R -> R -> R -> R -> R -> R -> Prop) :
  (0 <= n)%Z -> zlen a = n -> zlen b = n -> zlen y = k ->
  (forall i (a1 b1 y1 : arr), (0 <= i < n)%Z -> zlen a1 = n -> zlen b1 = n -> zlen y1 = k ->
     wp (body i (a1, b1, y1)) (fun '(a2, b2, y2) => (zlen a2 = n /\ zlen b2 = n /\ zlen y2 = k) /\ same_off i a1 a2 /\ same_off i b1 b2 /\ same_off i y1 y2 /\
       Q i (zn 0 a1 i) (zn 0 b1 i) (zn 0 y1 i) (zn 0 a2 i) (zn 0 b2 i) (zn 0 y2 i))) ->
  wp (for_up 0 n body (a, b, y)) (fun '(a', b', y') => (zlen a' = n /\ zlen b' = n /\ zlen y' = k) /\
    (forall i, (0 <= i < n)%Z -> Q i (zn 0 a i) (zn 0 b i) (zn 0 y i) (zn 0 a' i) (zn 0 b' i) (zn 0 y' i)) /\
    forall i, (n <= i)%Z -> zn 0 y' i = zn 0 y i).
Proof.
  intros Hn La Lb Ly Body.
  apply wp_for_up with (I := fun k0 '(a', b', y') => (zlen a' = n /\ zlen b' = n /\ zlen y' = k) /\
    (forall i, (0 <= i < k0)%Z -> Q i (zn 0 a i) (zn 0 b i) (zn 0 y i) (zn 0 a' i) (zn 0 b' i) (zn 0 y' i)) /\
    (forall i, (k0 <= i)%Z -> zn 0 a' i = zn 0 a i /\ zn 0 b' i = zn 0 b i /\ zn 0 y' i = zn 0 y i)).
  - exact Hn.
  - split; [auto|]. split; [intros; lia|auto].
  - intros i ((a1, b1), y1) Hi ((L1 & L2 & L3) & Q1 & Q2). eapply wp_mono; [apply Body; [lia|assumption..]|].
    intros ((a2, b2), y2) (L' & O1 & O2 & O3 & Qi). split; [exact L'|]. destruct (Q2 i ltac:(lia)) as (E1 & E2 & E3). rewrite E1, E2, E3 in Qi. split.
    + intros j Hj. destruct (Z.eq_dec j i) as [->|]; [exact Qi|]. rewrite O1, O2, O3 by lia. apply Q1. lia.
    + intros j Hj. rewrite O1, O2, O3 by lia. apply Q2. lia.
  - intros ((a', b'), y') (L' & Q1 & Q2). split; [exact L'|]. split; [exact Q1|]. intros i Hi. apply (Q2 i Hi).
Qed.
Lemma loopC n m (body : Z -> arr * arr * arr * arr * arr -> res (arr * arr * arr * arr * arr)) (a b c d y : arr)
  (Q : Z -> R -> R -> R -> R -> R -> R -> R -> R -> R -> R -> Prop) : (0 <= n)%Z -> (0 <= m)%Z -> len5 n m a b c d y ->
  (forall i (a1 b1 c1 d1 y1 : arr), (0 <= i < m)%Z -> len5 n m a1 b1 c1 d1 y1 ->
     wp (body i (a1, b1, c1, d1, y1)) (fun '(a2, b2, c2, d2, y2) => len5 n m a2 b2 c2 d2 y2 /\
       same_off i a1 a2 /\ same_off i b1 b2 /\ same_off i c1 c2 /\ same_off i d1 d2 /\ same_off (n + i) y1 y2 /\
       Q i (zn 0 a1 i) (zn 0 b1 i) (zn 0 c1 i) (zn 0 d1 i) (zn 0 y1 (n + i)) (zn 0 a2 i) (zn 0 b2 i) (zn 0 c2 i) (zn 0 d2 i) (zn 0 y2 (n + i)))) ->
  wp (for_up 0 m body (a, b, c, d, y)) (fun '(a', b', c', d', y') => len5 n m a' b' c' d' y' /\
    (forall i, (0 <= i < m)%Z -> Q i (zn 0 a i) (zn 0 b i) (zn 0 c i) (zn 0 d i) (zn 0 y (n + i)) (zn 0 a' i) (zn 0 b' i) (zn 0 c' i) (zn 0 d' i) (zn 0 y' (n + i))) /\
    forall i, (0 <= i < n)%Z -> zn 0 y' i = zn 0 y i).
Proof.
  intros Hn Hm L Body.
  apply wp_for_up with (I := fun k '(a', b', c', d', y') => len5 n m a' b' c' d' y' /\
    (forall i, (0 <= i < k)%Z -> Q i (zn 0 a i) (zn 0 b i) (zn 0 c i) (zn 0 d i) (zn 0 y (n + i)) (zn 0 a' i) (zn 0 b' i) (zn 0 c' i) (zn 0 d' i) (zn 0 y' (n + i))) /\
    (forall i, (k <= i)%Z -> zn 0 a' i = zn 0 a i /\ zn 0 b' i = zn 0 b i /\ zn 0 c' i = zn 0 c i /\ zn 0 d' i = zn 0 d i /\ zn 0 y' (n + i) = zn 0 y (n + i)) /\
    forall i, (0 <= i < n)%Z -> zn 0 y' i = zn 0 y i).
  - exact Hm.
  - split; [exact L|]. split; [intros; lia|]. split; [intros; repeat split|reflexivity].
  - intros i ((((a1, b1), c1), d1), y1) Hi (L1 & Q1 & Q2 & Q3). eapply wp_mono; [apply Body; [lia|exact L1]|].
    intros ((((a2, b2), c2), d2), y2) (L' & O1 & O2 & O3 & O4 & O5 & Qi). split; [exact L'|].
    destruct (Q2 i ltac:(lia)) as (E1 & E2 & E3 & E4 & E5). rewrite E1, E2, E3, E4, E5 in Qi. split; [|split].
    + intros j Hj. destruct (Z.eq_dec j i) as [->|]; [exact Qi|]. rewrite O1, O2, O3, O4, O5 by lia. apply Q1. lia.
    + intros j Hj. rewrite O1, O2, O3, O4, O5 by lia. apply Q2. lia.
    + intros j Hj. rewrite O5 by lia. apply Q3. lia.
  - intros ((((a', b'), c'), d'), y') (L' & Q1 & _ & Q3). auto.
Qed.
Ltac rx := rewrite (rd_ok 0) by (rcar; rewrite ?zlen_zupd; lia); cbn [bind].
Ltac wx := rewrite wr_ok by (rcar; rewrite ?zlen_zupd; lia); cbn [bind].
Ltac offs := repeat (split; [first [apply same_off_refl | (apply same_off_upd; lia)]|]); rewrite ?zn_zupd_eq by lia.
Ltac doneB := cbn [wp]; rewrite ?zlen_zupd; split; [repeat split; assumption|]; offs.
Ltac doneC := cbn [wp]; unfold len5; rewrite ?zlen_zupd; split; [repeat split; assumption|]; offs.

(** ** The gradient *)
Lemma grad_ok n m Hu Am M (s : qp N) : sized eps zero infty n m s -> hess eps zero infty n (p_b s) Hu -> p_A s = Some M -> astored eps zero infty m n M Am ->
  wp (p_setupAuxiliaryQPgradient (N := N) s) (fun s' => exists g : arr, s' = up_b (N := N) (set_q_g (N := N) g) s /\ zlen g = n /\
    forall i, (0 <= i < n)%Z -> zn 0 g i = yB s i - matvec n Hu (xB s) i + rsum 0 m (fun j => Am j i * yB s (n + j))).
Proof.
  intros Z0 HE HA AS. destruct Z0. destruct (astored_products eps zero infty zero_b m n M Am sz_m sz_n AS) as (_ & TO). unfold p_setupAuxiliaryQPgradient, on_b.
  destruct (wp_inv _ _ (gradient_of eps zero infty n (p_b s) Hu sz_n sz_V sz_g sz_x ltac:(rcar; lia) HE)) as (b & E & g & -> & Lg & Vg).
  rewrite E. cbn [bind]. unfold p_theA. change (p_A (set_p_b (N := N) (set_q_g (N := N) g (p_b s)) s)) with (p_A s). rewrite HA. cbn [bind].
  set (s1 := set_p_b (N := N) (set_q_g (N := N) g (p_b s)) s). replace (pV s1) with n by (symmetry; exact sz_V). replace (pC s1) with m by (symmetry; exact sz_C).
  change (q_y (p_b s1)) with (q_y (p_b s)). change (q_g (p_b s1)) with g.
  destruct (TO (skipn (Z.to_nat n) (q_y (p_b s))) g) as (g' & E' & Lg' & Vg').
  - rewrite (zlen_tail _ n m); auto; lia.
  - rcar; lia.
  - rcar. rewrite E'. cbn [bind]. apply wp_ok. exists g'. split; [reflexivity|]. split; [congruence|]. intros i Hi. rewrite Vg' by exact Hi. rewrite Vg by exact Hi. f_equal.
    apply rsum_ext. intros j Hj. rewrite (zn_tail eps zero infty) by lia. reflexivity.
Qed.

(** ** Optimality *)
Definition in_order (v : SubjectToStatus) (x l u y : R) : Prop :=
  (consistent v x l u y \/ (l = x /\ u = x)) /\ (v = ST_LOWER -> x = l) /\ (v = ST_UPPER -> x = u) /\ (v = ST_INACTIVE -> y = 0).
Lemma in_order_ok v x l u y : in_order v x l u y -> okpair l u x y.
Proof.
  unfold in_order, consistent, okpair. intros ([(B & C)|(-> & ->)] & _); [|split; [lra|auto]]. split; [exact B|].
  destruct v; try contradiction; [|subst y|]; split; try lra; intros; try (destruct C; lra).
Qed.
Lemma optimal_in_order n m Hm Am (s : qp N) :
  (forall i, (0 <= i < n)%Z -> in_order (wsB s i) (xB s i) (lB s i) (uB s i) (yB s i)) ->
  (forall i, (0 <= i < m)%Z -> in_order (wsC s i) (act n Am s i) (lC s i) (uC s i) (yB s (n + i))) ->
  (forall i, (0 <= i < n)%Z -> zn 0 (q_g (p_b s)) i = yB s i - matvec n Hm (xB s) i + rsum 0 m (fun j => Am j i * yB s (n + j))) ->
  pair_optimal eps zero infty n m Hm Am s /\ on_limits n m Am s.
Proof.
  intros B C G. split.
  - apply optimal_iff. split; [|split]; [intros i Hi; apply (in_order_ok _ _ _ _ _ (B i Hi))|intros i Hi; apply (in_order_ok _ _ _ _ _ (C i Hi))|exact G].
  - split; intros i Hi; [apply (B i Hi)|apply (C i Hi)].
Qed.

(** ** Drift correction *)
Theorem C41_QProblem n m Hm Am (s : qp N) : held n m Hm Am s ->
  (forall i, (0 <= i < n)%Z -> correctable (tyB s i) (wsB s i) (xB s i) (lB s i) (uB s i) (yB s i)) ->
  (forall i, (0 <= i < m)%Z -> correctable (tyC s i) (wsC s i) (act n Am s i) (lC s i) (uC s i) (yB s (n + i))) ->
  (forall i, (0 <= i < m)%Z -> tyC s i = ST_BOUNDED \/ tyC s i = ST_EQUALITY \/ slack_right n Am s i) ->
  exists s', p_performDriftCorrection (N := N) s = Ok s' /\ pair_optimal eps zero infty n m Hm Am s' /\ on_limits n m Am s' /\
    slacks eps zero infty n m Am s' /\ same_rest s s'.
Proof.
  intros [SZ (l0 & l1 & WB) (k0 & k1 & WC) HE (M & HA & AS) AX] CB CC SL. pose proof SZ as SZ0. destruct SZ.
  assert (NB : st_n (p_bounds s) = n) by exact sz_V. assert (NC : st_n (p_cons s) = m) by exact sz_C.
  assert (W : wp (p_performDriftCorrection (N := N) s) (fun s' => pair_optimal eps zero infty n m Hm Am s' /\ on_limits n m Am s' /\
    slacks eps zero infty n m Am s' /\ same_rest s s')); [|apply wp_inv in W as (s' & E & K); eauto].
  unfold p_performDriftCorrection. rewrite sz_V, sz_C. apply wp_bind.
  eapply wp_mono; [apply (loopB n (n + m) _ (q_lb (p_b s)) (q_ub (p_b s)) (q_y (p_b s)) (fun i l u y l' u' y' => QPBX5.drift (tyB s i) (wsB s i) (xB s i) l u y l' u' y'))|]; auto.
  { intros i a b y Hi La Lb Ly. rewrite (getType_ok _ _ _ i WB) by (rewrite NB; lia). cbn [bind]. fold (tyB s i). unfold QPBX5.drift.
    destruct (tyB s i); try (doneB; repeat split; reflexivity).
    - rewrite (getStatus_ok _ _ _ i WB) by (rewrite NB; lia). cbn [bind]. fold (wsB s i). rx. rx. rx. rx.
      destruct (wsB s i); cbn [drift1]; rewrite ?getMax_R, ?getMin_R; wx; wx; wx; doneB; repeat split; reflexivity.
    - rx. wx. wx. doneB. repeat split; reflexivity. }
  intros ((lb, ub), y) ((Ll & Lu & Ly) & VB & KB). cbn iota beta. apply wp_bind.
  eapply wp_mono; [apply (loopC n m _ (p_lbA s) (p_ubA s) (p_Ax_l s) (p_Ax_u s) y (fun i l u c d yi l' u' c' d' y' =>
    QPBX5.drift (tyC s i) (wsC s i) (act n Am s i) l u yi l' u' y' /\
    (c' = c /\ d' = d /\ l' = l /\ u' = u \/ c' = act n Am s i - l' /\ d' = u' - act n Am s i) /\ (settled (wsC s i) /\ tyC s i = ST_BOUNDED \/ tyC s i = ST_EQUALITY -> c' = act n Am s i - l' /\ d' = u' - act n Am s i)))|]; auto.
  { unfold len5. auto. }
  { intros i a b c d y1 Hi (La & Lb & Lc & Ld & Ly1). rewrite (getType_ok _ _ _ i WC) by (rewrite NC; lia). cbn [bind]. fold (tyC s i). unfold QPBX5.drift.
    destruct (tyC s i) eqn:TC; try (doneC; split; [repeat split; reflexivity|]; split; [left; repeat split; reflexivity|intros [(_ & K)|K]; discriminate K]).
    - rewrite (getStatus_ok _ _ _ i WC) by (rewrite NC; lia). cbn [bind]. fold (wsC s i).
      destruct (wsC s i) eqn:WS; try (doneC; split; [repeat split; reflexivity|]; split; [left; repeat split; reflexivity|intros [([K|[K|K]] & _)|K]; discriminate K]).
      all: rx; rx; rx; rx; cbn [drift1 is_sts]; rewrite ?getMax_R, ?getMin_R; wx; wx; wx; wx; wx; doneC; rnum; rewrite (AX i Hi).
      all: split; [repeat split; reflexivity|]; split; [right|intros _]; split; try reflexivity; cbn; lra.
    - rx. wx. wx. wx. wx. doneC. rnum. rewrite (AX i Hi). split; [repeat split; reflexivity|]. split; [right|intros _]; split; try reflexivity; cbn; lra. }
  intros ((((lbA, ubA), Al), Au), y2) ((L1 & L2 & L3 & L4 & L5) & VC & KC). cbn iota beta.
  set (s1 := up_b (N := N) _ _). eapply wp_mono; [apply (grad_ok n m Hm Am M s1); [constructor; auto|exact HE|exact HA|exact AS]|].
  intros s' (g & -> & Lg & Vg).
  set (s2 := up_b (N := N) _ s1).
  assert (B2 : forall i, (0 <= i < n)%Z -> in_order (wsB s2 i) (xB s2 i) (lB s2 i) (uB s2 i) (yB s2 i)).
  { intros i Hi. pose proof (VB i Hi) as D. rewrite <- (KC i Hi) in D. exact (drift_consistent _ _ _ _ _ _ _ _ _ (CB i Hi) D). }
  assert (C2 : forall i, (0 <= i < m)%Z -> in_order (wsC s2 i) (act n Am s2 i) (lC s2 i) (uC s2 i) (yB s2 (n + i))).
  { intros i Hi. destruct (VC i Hi) as (D & _). rewrite (KB (n + i)%Z) in D by lia. exact (drift_consistent _ _ _ _ _ _ _ _ _ (CC i Hi) D). }
  destruct (optimal_in_order n m Hm Am s2 B2 C2 Vg) as (PO & OL). split; [exact PO|]. split; [exact OL|]. split.
  - intros i Hi. destruct (VC i Hi) as (_ & [(E1 & E2 & E3 & E4)|K] & K2); [|exact K]. specialize (CC i Hi). 
    destruct (SL i Hi) as [T|[T|(S1 & S2)]].
    + apply K2. left. rewrite T in CC. auto.
    + apply K2. auto.
    + change (zn 0 Al i = act n Am s i - zn 0 lbA i /\ zn 0 Au i = zn 0 ubA i - act n Am s i). rewrite E1, E2, E3, E4. auto.
  - exists lb, ub, y2, g, lbA, ubA, Al, Au, (q_rampOffset (p_b s)). unfold s2, s1. destruct s as [b0]; destruct b0; reflexivity.
Qed.

(** ** Ramping *)
(** what ramping can repair *)
Definition rampableP (t : SubjectToType) (v : SubjectToStatus) (x l u y : R) : Prop :=
  match t with
  | ST_BOUNDED => settled v
  | ST_EQUALITY => v = ST_INACTIVE -> y = 0
  | _ => consistent v x l u y
  end.
Definition rampP (rp rd : R) (t : SubjectToType) (v : SubjectToStatus) (x l u y l' u' y' : R) : Prop :=
  match t with
  | ST_EQUALITY => l' = x /\ u' = x /\ y' = y
  | ST_BOUNDED => ramp1 (N := N) v x rp rd l u y = (l', u', y')
  | _ => l' = l /\ u' = u /\ y' = y
  end.
Lemma ramp1_R v (x rp rd l u y : R) : ramp1 (N := N) v x rp rd l u y =
  (match v with ST_LOWER => x | _ => x - Rmax (Rabs x) 1 * rp end, match v with ST_UPPER => x | _ => x + Rmax (Rabs x) 1 * rp end,
   match v with ST_LOWER => rd | ST_UPPER => - rd | ST_INACTIVE => 0 | _ => y end).
Proof. unfold ramp1. rewrite getMax_R. destruct v; cbn; rnum; reflexivity. Qed.
Lemma rampP_order rp rd t v x l u y l' u' y' : 0 <= rp -> 0 <= rd -> rampableP t v x l u y -> rampP rp rd t v x l u y l' u' y' -> in_order v x l' u' y'.
Proof.
  intros P D C K. assert (SP : 0 <= Rmax (Rabs x) 1 * rp) by (apply Rmult_le_pos; [pose proof (Rmax_r (Rabs x) 1); lra|exact P]).
  unfold in_order. destruct t; cbn [rampableP rampP] in C, K.
  1,4,5: destruct K as (-> & -> & ->); split; [left; exact C|]; destruct C as (_ & C); destruct v; try contradiction; repeat split; try discriminate; tauto.
  - rewrite ramp1_R in K. unfold consistent. destruct C as [-> | [-> | ->]]; injection K as <- <- <-; (split; [left; lra|]); repeat split; try discriminate; reflexivity.
  - destruct K as (-> & -> & ->). auto.
Qed.
(** the ramp slots are weights between 0 and 1 *)
Lemma slot_weight (k off nR : Z) : (2 <= nR)%Z -> (0 <= k + off)%Z -> 0 <= rampT (N := N) k off nR <= 1.
Proof.
  intros H2 Ho. unfold rampT. rnum. unfold Rlit. cbn [Z.leb Z.compare Z.pow]. rewrite !Z.mul_1_r.
  assert (B : (0 <= Z.rem (k + off) nR <= nR - 1)%Z) by (pose proof (Z.rem_bound_pos (k + off) nR); lia).
  assert (D : 0 < IZR (nR - 1)) by (apply IZR_lt; lia). assert (B1 : 0 <= IZR (Z.rem (k + off) nR)) by (apply IZR_le; lia).
  assert (B2 : IZR (Z.rem (k + off) nR) <= IZR (nR - 1)) by (apply IZR_le; lia).
  split; [apply Rmult_le_pos; [exact B1|left; now apply Rinv_0_lt_compat]|].
  apply (Rmult_le_reg_r (IZR (nR - 1))); [exact D|]. unfold Rdiv. rewrite Rmult_assoc, Rinv_l by lra. lra.
Qed.

(** With nonnegative ramps, ramping leaves a problem for which (x,y) is optimal.
    The multipliers of regular bounds and constraints in the working set lie between
    the ramps, and so do the distances of x and A*x from the other limits, relative to
    max(|x|,1) and max(|A*x|,1).  The stored distances are right for all constraints
    but equalities, for which they stay what they were. *)
Theorem C42_QProblem n m Hm Am (s : qp N) : held n m Hm Am s -> (1 <= n)%Z ->
  (0 <= q_rampOffset (p_b s))%Z -> 0 <= q_ramp0 (p_b s) -> 0 <= q_ramp1 (p_b s) ->
  (forall i, (0 <= i < n)%Z -> rampableP (tyB s i) (wsB s i) (xB s i) (lB s i) (uB s i) (yB s i)) ->
  (forall i, (0 <= i < m)%Z -> rampableP (tyC s i) (wsC s i) (act n Am s i) (lC s i) (uC s i) (yB s (n + i))) ->
  let lo := Rmin (q_ramp0 (p_b s)) (q_ramp1 (p_b s)) in let hi := Rmax (q_ramp0 (p_b s)) (q_ramp1 (p_b s)) in
  let spread v x l u y := exists rp rd, lo <= rp <= hi /\ lo <= rd <= hi /\
      l = match v with ST_LOWER => x | _ => x - Rmax (Rabs x) 1 * rp end /\ u = match v with ST_UPPER => x | _ => x + Rmax (Rabs x) 1 * rp end /\
      y = match v with ST_LOWER => rd | ST_UPPER => - rd | _ => 0 end in
  exists s', p_performRamping (N := N) s = Ok s' /\ pair_optimal eps zero infty n m Hm Am s' /\ on_limits n m Am s' /\ same_rest s s' /\
    q_rampOffset (p_b s') = (q_rampOffset (p_b s) + 1)%Z /\
    (forall i, (0 <= i < n)%Z -> tyB s i = ST_BOUNDED -> spread (wsB s i) (xB s i) (lB s' i) (uB s' i) (yB s' i)) /\
    (forall i, (0 <= i < m)%Z -> tyC s i = ST_BOUNDED -> spread (wsC s i) (act n Am s i) (lC s' i) (uC s' i) (yB s' (n + i))) /\
    (forall i, (0 <= i < m)%Z -> match tyC s i with
       | ST_BOUNDED => slack_right n Am s' i
       | ST_EQUALITY => zn 0 (p_Ax_l s') i = zn 0 (p_Ax_l s) i /\ zn 0 (p_Ax_u s') i = zn 0 (p_Ax_u s) i
       | _ => slack_right n Am s i -> slack_right n Am s' i
       end).
Proof.
  intros [SZ (l0 & l1 & WB) (k0 & k1 & WC) HE (M & HA & AS) AX] Hn1 HO P0 P1 CB CC lo hi spread. pose proof SZ as SZ0. destruct SZ.
  assert (NB : st_n (p_bounds s) = n) by exact sz_V. assert (NC : st_n (p_cons s) = m) by exact sz_C.
  set (nR := (n + m + m + n)%Z).
  set (rv := fun k : Z => let t : N := rampT (N := N) k (q_rampOffset (p_b s)) nR in ((n1 -' t) *' q_ramp0 (p_b s) +' t *' q_ramp1 (p_b s) : R)).
  assert (RV : forall k, (0 <= k)%Z -> lo <= rv k <= hi).
  { intros k Hk. unfold rv, lo, hi. cbv zeta. pose proof (slot_weight k (q_rampOffset (p_b s)) nR ltac:(unfold nR; lia) ltac:(lia)) as T.
    rnum. change (Rlit 1 0) with 1. generalize dependent (rampT (N := N) k (q_rampOffset (p_b s)) nR). intros t T. rcar. revert P0 P1.
    generalize (q_ramp0 (p_b s)) (q_ramp1 (p_b s)). rcar. intros r0 r1 P0 P1.
    pose proof (Rmin_l r0 r1). pose proof (Rmin_r r0 r1). pose proof (Rmax_l r0 r1). pose proof (Rmax_r r0 r1). split; nra. }
  assert (LO : 0 <= lo) by (unfold lo; apply Rmin_glb; assumption).
  assert (RN : forall k, (0 <= k)%Z -> 0 <= rv k) by (intros k Hk; pose proof (RV k Hk); lra).
  assert (W : wp (p_performRamping (N := N) s) (fun s' => pair_optimal eps zero infty n m Hm Am s' /\ on_limits n m Am s' /\ same_rest s s' /\
    q_rampOffset (p_b s') = (q_rampOffset (p_b s) + 1)%Z /\
    (forall i, (0 <= i < n)%Z -> tyB s i = ST_BOUNDED -> spread (wsB s i) (xB s i) (lB s' i) (uB s' i) (yB s' i)) /\
    (forall i, (0 <= i < m)%Z -> tyC s i = ST_BOUNDED -> spread (wsC s i) (act n Am s i) (lC s' i) (uC s' i) (yB s' (n + i))) /\
    (forall i, (0 <= i < m)%Z -> match tyC s i with
       | ST_BOUNDED => slack_right n Am s' i
       | ST_EQUALITY => zn 0 (p_Ax_l s') i = zn 0 (p_Ax_l s) i /\ zn 0 (p_Ax_u s') i = zn 0 (p_Ax_u s) i
       | _ => slack_right n Am s i -> slack_right n Am s' i
       end))); [|apply wp_inv in W as (s' & E & K); exists s'; auto].
  unfold p_performRamping. rewrite sz_V, sz_C. cbv zeta. fold nR. apply wp_bind.
  eapply wp_mono; [apply (loopB n (n + m) _ (q_lb (p_b s)) (q_ub (p_b s)) (q_y (p_b s))
    (fun i l u y l' u' y' => rampP (rv i) (rv (n + m + m + i)%Z) (tyB s i) (wsB s i) (xB s i) l u y l' u' y'))|]; auto.
  { intros i a b y Hi La Lb Ly. rewrite (getType_ok _ _ _ i WB) by (rewrite NB; lia). cbn [bind]. fold (tyB s i). unfold rampP.
    destruct (tyB s i); try (doneB; repeat split; reflexivity).
    - rewrite (getStatus_ok _ _ _ i WB) by (rewrite NB; lia). cbn [bind]. fold (wsB s i). rx. rx. rx. rx.
      fold (rv i). fold (rv (n + m + m + i)%Z). fold (xB s i).
      destruct (ramp1 (N := N) (wsB s i) (xB s i) (rv i) (rv (n + m + m + i)%Z) (zn 0 a i) (zn 0 b i) (zn 0 y i)) as ((l', u'), y') eqn:ER.
      wx. wx. wx. doneB. reflexivity.
    - rx. wx. wx. doneB. repeat split; reflexivity. }
  intros ((lb, ub), y) ((Ll & Lu & Ly) & VB & KB). cbn iota beta. apply wp_bind.
  eapply wp_mono; [apply (loopC n m _ (p_lbA s) (p_ubA s) (p_Ax_l s) (p_Ax_u s) y (fun i l u c d yi l' u' c' d' y' =>
    rampP (rv (n + i)%Z) (rv (n + m + i)%Z) (tyC s i) (wsC s i) (act n Am s i) l u yi l' u' y' /\
    match tyC s i with ST_BOUNDED => c' = act n Am s i - l' /\ d' = u' - act n Am s i | _ => c' = c /\ d' = d end))|]; auto.
  { unfold len5. auto. }
  { intros i a b c d y1 Hi (La & Lb & Lc & Ld & Ly1). rewrite (getType_ok _ _ _ i WC) by (rewrite NC; lia). cbn [bind]. fold (tyC s i). unfold rampP.
    destruct (tyC s i) eqn:TC; try (doneC; repeat split; reflexivity).
    - rewrite (getStatus_ok _ _ _ i WC) by (rewrite NC; lia). cbn [bind]. fold (wsC s i). rx. rx. rx. rx. rewrite (AX i Hi).
      fold (rv (n + i)%Z). fold (rv (n + m + i)%Z).
      destruct (ramp1 (N := N) (wsC s i) (act n Am s i) (rv (n + i)%Z) (rv (n + m + i)%Z) (zn 0 a i) (zn 0 b i) (zn 0 y1 (n + i))) as ((l', u'), y') eqn:ER.
      wx. wx. wx. wx. wx. doneC. repeat split; reflexivity.
    - rx. wx. wx. doneC. rewrite (AX i Hi). repeat split; reflexivity. }
  intros ((((lbA, ubA), Al), Au), y2) ((L1 & L2 & L3 & L4 & L5) & VC & KC). cbn iota beta. apply wp_bind.
  set (s1 := up_b (N := N) _ _). eapply wp_mono; [apply (grad_ok n m Hm Am M s1); [constructor; auto|exact HE|exact HA|exact AS]|].
  intros s' (g & -> & Lg & Vg). apply wp_ok.
  set (s2 := up_b (N := N) _ _).
  assert (B2 : forall i, (0 <= i < n)%Z -> rampP (rv i) (rv (n + m + m + i)%Z) (tyB s i) (wsB s i) (xB s i) (lB s i) (uB s i) (yB s i) (lB s2 i) (uB s2 i) (yB s2 i)).
  { intros i Hi. pose proof (VB i Hi) as D. rewrite <- (KC i Hi) in D. exact D. }
  assert (C2 : forall i, (0 <= i < m)%Z -> rampP (rv (n + i)%Z) (rv (n + m + i)%Z) (tyC s i) (wsC s i) (act n Am s i) (lC s i) (uC s i) (yB s (n + i)) (lC s2 i) (uC s2 i) (yB s2 (n + i))).
  { intros i Hi. destruct (VC i Hi) as (D & _). rewrite (KB (n + i)%Z) in D by lia. exact D. }
  assert (SP : forall k1 k2 v x l u y l' u' y', (0 <= k1)%Z -> (0 <= k2)%Z -> settled v -> rampP (rv k1) (rv k2) ST_BOUNDED v x l u y l' u' y' -> spread v x l' u' y').
  { intros q1 q2 v x l u y0 l' u' y' H1 H2 S K. exists (rv q1), (rv q2). split; [now apply RV|]. split; [now apply RV|]. cbn [rampP] in K. rewrite ramp1_R in K.
    injection K as <- <- <-. split; [reflexivity|]. split; [reflexivity|]. destruct S as [-> | [-> | ->]]; reflexivity. }
  assert (OO : pair_optimal eps zero infty n m Hm Am s2 /\ on_limits n m Am s2).
  { apply optimal_in_order.
    - intros i Hi. exact (rampP_order _ _ _ _ _ _ _ _ _ _ _ (RN i ltac:(lia)) (RN (n + m + m + i)%Z ltac:(lia)) (CB i Hi) (B2 i Hi)).
    - intros i Hi. exact (rampP_order _ _ _ _ _ _ _ _ _ _ _ (RN (n + i)%Z ltac:(lia)) (RN (n + m + i)%Z ltac:(lia)) (CC i Hi) (C2 i Hi)).
    - exact Vg. }
  split; [apply OO|]. split; [apply OO|]. split; [|split; [reflexivity|split; [|split]]].
  - exists lb, ub, y2, g, lbA, ubA, Al, Au, (q_rampOffset (p_b s) + 1)%Z. reflexivity.
  - intros i Hi T. pose proof (B2 i Hi) as K. pose proof (CB i Hi) as C. rewrite T in K, C. apply (SP _ _ _ _ _ _ _ _ _ _ (ltac:(lia) : (0 <= i)%Z) (ltac:(lia) : (0 <= n + m + m + i)%Z) C K).
  - intros i Hi T. pose proof (C2 i Hi) as K. pose proof (CC i Hi) as C. rewrite T in K, C. apply (SP _ _ _ _ _ _ _ _ _ _ (ltac:(lia) : (0 <= n + i)%Z) (ltac:(lia) : (0 <= n + m + i)%Z) C K).
  - intros i Hi. destruct (VC i Hi) as (D & K). unfold rampP in D. unfold slack_right.
    change (p_Ax_l s2) with Al. change (p_Ax_u s2) with Au. change (lC s2 i) with (zn 0 lbA i). change (uC s2 i) with (zn 0 ubA i). change (act n Am s2 i) with (act n Am s i).
    destruct (tyC s i); try exact K; destruct D as (D1 & D2 & _), K as (-> & ->); rewrite D1, D2; auto.
Qed.
End AuxP.

(** ** The hypotheses can be met, and equalities keep wrong distances *)
(** Two variables, H = A = I, x = (1,0).  The first bound and the first constraint
    are inactive, the second ones are in the working set at their lower limits.  The
    first constraint is the equality x0 = 0, which x violates; the stored distances
    are right. *)
Definition axN := RNumT (1/1000) (1/1000000) 1000.
Definition axs : qp axN :=
  let s := p_new (N := axN) (fun n => repeat 0 (Z.to_nat n)) 2 2 HST_IDENTITY optDefault in
  let b := set_q_htype (N := axN) HST_IDENTITY (set_q_x (N := axN) [1; 0] (set_q_y (N := axN) [0; 1; 0; 1] (ex_qp (N := axN) optDefault))) in
  set_p_A (N := axN) (Some (ADense (N := axN) (mkDense 2 2 2 [1; 0; 0; 1]))) (set_p_lbA (N := axN) [0; 0] (set_p_ubA (N := axN) [0; 1]
  (set_p_Ax (N := axN) [1; 0] (set_p_Ax_l (N := axN) [1; 0] (set_p_Ax_u (N := axN) [-1; 1]
  (set_p_cons (N := axN) (st_set_type ex_st [ST_EQUALITY; ST_BOUNDED]) (set_p_b (N := axN) (set_q_bounds (N := axN) (st_set_type ex_st [ST_BOUNDED; ST_BOUNDED]) b) s))))))).
Definition axA : Z -> Z -> R := dmat (mkDense 2 2 2 [1; 0; 0; 1]).
Lemma axs_act i : (0 <= i < 2)%Z -> act (1/1000) (1/1000000) 1000 2 axA axs i = zn 0 [1; 0] i.
Proof.
  intros Hi. assert (i = 0 \/ i = 1)%Z as [-> | ->] by lia; unfold act, axA, xB.
  - change (1 * 1 + (0 * 0 + 0) = 1). lra.
  - change (0 * 1 + (1 * 0 + 0) = 0). lra.
Qed.
Lemma axs_held : held (1/1000) (1/1000000) 1000 2 2 delta axA axs.
Proof.
  constructor.
  - constructor; first [reflexivity|lia].
  - exists [0%Z], [1%Z]. destruct ex_st_wf. constructor; auto.
  - exists [0%Z], [1%Z]. destruct ex_st_wf. constructor; auto.
  - intros i j. reflexivity.
  - eexists. split; [reflexivity|]. split; [repeat split; cbn; unfold zlen; cbn; lia|]. repeat split.
  - intros i Hi. rewrite axs_act by exact Hi. reflexivity.
Qed.
Lemma axs_slacks : slacks (1/1000) (1/1000000) 1000 2 2 axA axs.
Proof.
  intros i Hi. change (rsum _ _ _) with (act (1/1000) (1/1000000) 1000 2 axA axs i). rewrite (axs_act i Hi).
  assert (i = 0 \/ i = 1)%Z as [-> | ->] by lia.
  - change (1 = 1 - 0 /\ -1 = 0 - 1). lra.
  - change (0 = 0 - 0 /\ 1 = 1 - 0). lra.
Qed.
Example C41_QProblem_ex : exists s', p_performDriftCorrection (N := axN) axs = Ok s' /\ pair_optimal (1/1000) (1/1000000) 1000 2 2 delta axA s' /\
  ~ pair_optimal (1/1000) (1/1000000) 1000 2 2 delta axA axs.
Proof.
  destruct (C41_QProblem (1/1000) (1/1000000) 1000 ltac:(lra) 2 2 delta axA axs axs_held) as (s' & E & O & _).
  - intros i Hi. assert (i = 0 \/ i = 1)%Z as [-> | ->] by lia; hnf; first [left; reflexivity|right; left; reflexivity|intros _; reflexivity].
  - intros i Hi. assert (i = 0 \/ i = 1)%Z as [-> | ->] by lia; hnf; first [left; reflexivity|right; left; reflexivity|intros _; reflexivity].
  - intros i Hi. assert (i = 0 \/ i = 1)%Z as [-> | ->] by lia; auto.
  - exists s'. split; [exact E|]. split; [exact O|]. intros K. apply optimal_iff in K as (_ & K & _). specialize (K 0%Z ltac:(lia)). destruct K as ((_ & K) & _).
    change (Axv _ _ _ _ _ axs 0) with (act (1/1000) (1/1000000) 1000 2 axA axs 0) in K. rewrite axs_act in K by lia. change (1 <= 0) in K. lra.
Qed.
Lemma axs_ramping : exists s', p_performRamping (N := axN) axs = Ok s' /\ pair_optimal (1/1000) (1/1000000) 1000 2 2 delta axA s' /\
  q_x (p_b s') = q_x (p_b axs) /\ zn 0 (p_Ax_u s') 0 = -1.
Proof.
  destruct (C42_QProblem (1/1000) (1/1000000) 1000 ltac:(lra) 2 2 delta axA axs axs_held) as (s' & E & O & _ & (? & ? & ? & ? & ? & ? & ? & ? & ? & K) & _ & _ & _ & S).
  - lia.
  - cbn; lia.
  - change (0 <= 5 / 10). lra.
  - change (0 <= 1). lra.
  - intros i Hi. assert (i = 0 \/ i = 1)%Z as [-> | ->] by lia; hnf; first [left; reflexivity|right; left; reflexivity|intros _; reflexivity].
  - intros i Hi. assert (i = 0 \/ i = 1)%Z as [-> | ->] by lia; hnf; first [left; reflexivity|right; left; reflexivity|intros _; reflexivity].
  - exists s'. split; [exact E|]. split; [exact O|]. split; [rewrite K; reflexivity|]. exact (proj2 (S 0%Z ltac:(lia))).
Qed.
Example C42_QProblem_ex : exists s', p_performRamping (N := axN) axs = Ok s' /\ pair_optimal (1/1000) (1/1000000) 1000 2 2 delta axA s'.
Proof. destruct axs_ramping as (s' & E & O & _). eauto. Qed.
(** ramping moves the limits of the violated equality to A*x, but its stored distances
    stay those of the old limits (QProblem.cpp:5458-5460) *)
Theorem C42_slacks_refuted : exists s', p_performRamping (N := axN) axs = Ok s' /\
  slacks (1/1000) (1/1000000) 1000 2 2 axA axs /\ ~ slacks (1/1000) (1/1000000) 1000 2 2 axA s'.
Proof.
  destruct axs_ramping as (s' & E & O & X & A). exists s'. split; [exact E|]. split; [exact axs_slacks|]. intros S. destruct (S 0%Z ltac:(lia)) as (_ & S2).
  apply optimal_iff in O as (_ & O & _). specialize (O 0%Z ltac:(lia)). destruct O as ((_ & O) & _).
  pose proof (eq_trans (eq_sym A) S2) as K. unfold Axv in O. unfold axN in *. rcar. lra.
Qed.

Print Assumptions C41_QProblem.
Print Assumptions C42_QProblem.
Print Assumptions C42_slacks_refuted.
