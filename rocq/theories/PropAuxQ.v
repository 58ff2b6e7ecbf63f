(** The auxiliary problem of a QP with constraints (C36): what init prepares from a
    guess of the solution and of the working set. *)
From Coq Require Import QArith.
From Verif Require Kkt.
From Verif Require Import Base Types Num Options Indexlist IndexlistProofs Loops RSum LinSpec SafeLib SubjectTo SubjectToProofs SubjectToProofs2
  Flipper PropFlipper Matrices MatLib MatSafe CsLib PropDense PropSparse PropSparse2 LinAlg PropLinAlg QProblemB QPBSafe QPBSafe2 QPBSafe6 QPBEx QPBX1 QPBX2 QPBX5 QPBX11 PropHess PropAux
  QProblem QProblem2 QProblem3 QProblem4 QProblem5 QPFrame PropNull QProblem6 QPFrame2 QPFrame3 PropSQ PropAuxP.
Local Open Scope R_scope.

(** ** Loops *)
Lemma pc_up {S} (I : Z -> S -> Prop) lo hi body (s : S) : (lo <= hi)%Z -> I lo s ->
  (forall i s, (lo <= i < hi)%Z -> I i s -> pc (body i s) (I (i + 1)%Z)) -> pc (for_up lo hi body s) (I hi).
Proof.
  intros Hl H0 Hs. unfold for_up. remember (Z.to_nat (hi - lo)) as k eqn:Ek.
  cut (forall l s, (lo <= l <= hi)%Z -> Z.to_nat (hi - l) = k -> I l s -> pc (for_up_n k l body s) (I hi)).
  { intros X. apply X; auto. lia. }
  clear s H0 Ek. induction k as [|k IH]; intros l s Hk Ek H; cbn.
  - replace hi with l by lia. exact H.
  - eapply pc_bind; [apply Hs; [lia|exact H]|]. intros s' C. apply IH; auto; lia.
Qed.

Section AuxQ.
Variables eps zero infty : R.
Hypothesis eps_nn : 0 <= eps.
Hypothesis zero_b : 0 <= zero < 1.
Notation N := (RNumT eps zero infty).
Notation arr := (list R).
Variable junk : Z -> arr.
Hypothesis J : junk_ok (N := N) junk.
Notation tyB := (tyB eps zero infty). Notation tyC := (tyC eps zero infty). Notation wsB := (wsB eps zero infty). Notation wsC := (wsC eps zero infty).
Notation xB := (xB eps zero infty). Notation yB := (yB eps zero infty). Notation lB := (lB eps zero infty). Notation uB := (uB eps zero infty).
Notation lC := (lC eps zero infty). Notation uC := (uC eps zero infty). Notation act := (act eps zero infty).

(** ** Specification *)
(** the multiplier [y] fits the guessed status of bound [i]; without a guessed working
    set it must be zero or distinguishable from zero *)
Definition fitsB (y : R) (guess : option subjectTo) (i : Z) : Prop :=
  match guess with
  | Some gb => match zs (st_status gb) i with ST_INACTIVE => y = 0 | ST_LOWER => 0 <= y | ST_UPPER => y <= 0 | _ => False end
  | None => y = 0 \/ eps < Rabs y
  end.
(** the same for a constraint; equalities count as guessed at their lower limits *)
Definition fitsC (s : qp N) (y : R) (guess : option subjectTo) (i : Z) : Prop :=
  fitsB y guess i /\ (forall gc, guess = Some gc -> 0 <= y \/ lC s i <= uC s i - o_boundTolerance (p_opts s)).

(** ** One limit *)
Definition lim (rlx : R) (t : SubjectToType) (v a : SubjectToStatus) (x l0 u0 l u : R) : Prop :=
  match v with
  | ST_INACTIVE => if is_stt t ST_EQUALITY then l = x /\ u = x
                   else l = (if is_sts a ST_LOWER then x else x - rlx) /\ u = (if is_sts a ST_UPPER then x else x + rlx)
  | ST_LOWER => l = x /\ u = (if is_stt t ST_EQUALITY then x else x + rlx)
  | ST_UPPER => l = (if is_stt t ST_EQUALITY then x else x - rlx) /\ u = x
  | ST_INFEASIBLE_LOWER | ST_INFEASIBLE_UPPER => l = l0 /\ u = u0
  | ST_UNDEFINED => False
  end.
Lemma lim_ok (rlx x l u : R) v t aux : pc (auxLimits (N := N) true rlx x x l u v (is_stt t ST_EQUALITY) aux)
  (fun w => match w with Some (l', u') => exists a, (aux = Ok a \/ forall a', lim rlx t v a' x l u l' u') /\ lim rlx t v a x l u l' u' | None => True end).
Proof.
  unfold auxLimits, lim. destruct v; cbn; try (exists ST_INACTIVE; auto; fail); auto.
  destruct (is_stt t ST_EQUALITY); cbn; [exists ST_INACTIVE; auto|]. destruct aux as [a| |]; cbn; auto. exists a. auto.
Qed.
(** what the limits mean when the status is settled and allowed *)
Lemma lim_sound rlx t v a x l0 u0 l u y : 0 <= rlx -> settled a -> allowed t v a -> lim rlx t v a x l0 u0 l u ->
  (l <= x <= u /\ (v = ST_LOWER -> x = l) /\ (v = ST_UPPER -> x = u)) /\
  (t = ST_EQUALITY \/ match a with ST_INACTIVE => y = 0 | ST_LOWER => 0 <= y | _ => y <= 0 end -> okpair l u x y).
Proof.
  intros P S A L. unfold okpair.
  assert (V : v = ST_INACTIVE \/ v = a \/ (t = ST_EQUALITY /\ v = ST_LOWER)) by (destruct A as [A|[A|[A|A]]]; auto; subst v; contradiction L).
  assert (TE : t = ST_EQUALITY \/ is_stt t ST_EQUALITY = false) by (destruct t; auto).
  destruct TE as [-> |TE].
  - change (is_stt ST_EQUALITY ST_EQUALITY) with true in L.
    assert (E : l = x /\ u = x) by (destruct V as [-> |[-> |(_ & ->)]]; [exact L| |exact L]; destruct S as [-> |[-> | ->]]; exact L).
    destruct E as (-> & ->). repeat split; auto; lra.
  - unfold lim in L. rewrite TE in L. destruct V as [-> |[-> |(E & _)]]; [| |subst t; discriminate TE].
    + split.
      * destruct L as (-> & ->). split; [|split; discriminate]. destruct (is_sts a ST_LOWER), (is_sts a ST_UPPER); lra.
      * intros [E|Y]; [subst t; discriminate TE|]. destruct S as [-> |[-> | ->]]; destruct L as (-> & ->); cbn [is_sts] in *; cbn; repeat split; intros; try lra.
    + destruct S as [-> |[-> | ->]].
      * destruct L as (-> & ->). cbn. split; [split; [lra|split; discriminate]|]. intros [E|Y]; [subst t; discriminate TE|]. repeat split; intros; lra.
      * destruct L as (-> & ->). cbn. split; [split; [lra|split; [auto|discriminate]]|]. intros [E|Y]; [subst t; discriminate TE|]. repeat split; intros; lra.
      * destruct L as (-> & ->). cbn. split; [split; [lra|split; [discriminate|auto]]|]. intros [E|Y]; [subst t; discriminate TE|]. repeat split; intros; lra.
Qed.

(** ** The limits of the auxiliary problem *)
Ltac rx := rewrite (rd_ok 0) by (rcar; rewrite ?zlen_zupd; lia); cbn [bind].
Ltac wx := rewrite wr_ok by (rcar; rewrite ?zlen_zupd; lia); cbn [bind].
Definition lens2 (n : Z) (p : arr * arr) : Prop := zlen (fst p) = n /\ zlen (snd p) = n.
Definition lens4 (n : Z) (p : arr * arr * arr * arr) : Prop := let '(a, b, c, d) := p in zlen a = n /\ zlen b = n /\ zlen c = n /\ zlen d = n.
(** the limit [lim] with the status and type the object has, and the wanted status *)
Definition limB (rlx : R) (auxB : subjectTo) (s : qp N) (i : Z) (l u : R) : Prop := lim rlx (tyB s i) (wsB s i) (zs (st_status auxB) i) (xB s i) (lB s i) (uB s i) l u.
Lemma status_in b i v : (0 <= i < st_n b)%Z -> st_getStatus b i = Ok v -> v = zs (st_status b) i.
Proof. intros Hi. unfold st_getStatus. destruct (Z.leb_spec 0 i), (Z.ltb_spec i (st_n b)); try lia. cbn [andb]. intros E. apply rd_inv in E as (_ & E). now rewrite E. Qed.
Lemma type_in b i v : (0 <= i < st_n b)%Z -> st_getType b i = Ok v -> v = zt (st_type b) i.
Proof. intros Hi. unfold st_getType. destruct (Z.leb_spec 0 i), (Z.ltb_spec i (st_n b)); try lia. cbn [andb]. intros E. apply rd_inv in E as (_ & E). now rewrite E. Qed.
Lemma limits n m (s0 s : qp N) (g : arr) auxB auxC : sized eps zero infty n m s0 -> s = up_b (N := N) (set_q_g (N := N) g) s0 -> st_n auxB = n -> st_n auxC = m ->
  (forall i, (0 <= i < m)%Z -> zn 0 (p_Ax_l s) i = zn 0 (p_Ax s) i /\ zn 0 (p_Ax_u s) i = zn 0 (p_Ax s) i) ->
  pc (p_setupAuxiliaryQPbounds (N := N) (Some auxB) (Some auxC) true s) (fun '(r, s') => r = SUCCESSFUL_RETURN -> exists lb ub lbA ubA Al Au : arr,
    s' = set_p_Ax_u (N := N) Au (set_p_Ax_l (N := N) Al (set_p_ubA (N := N) ubA (set_p_lbA (N := N) lbA (up_b (N := N) (fun b => set_q_ub (N := N) ub (set_q_lb (N := N) lb b)) s)))) /\
    (forall i, (0 <= i < n)%Z -> lim (o_boundRelaxation (p_opts s)) (tyB s i) (wsB s i) (zs (st_status auxB) i) (xB s i) (lB s i) (uB s i) (zn 0 lb i) (zn 0 ub i)) /\
    (forall i, (0 <= i < m)%Z -> lim (o_boundRelaxation (p_opts s)) (tyC s i) (wsC s i) (zs (st_status auxC) i) (zn 0 (p_Ax s) i) (lC s i) (uC s i) (zn 0 lbA i) (zn 0 ubA i) /\
       zn 0 Al i = zn 0 (p_Ax s) i - zn 0 lbA i /\ zn 0 Au i = zn 0 ubA i - zn 0 (p_Ax s) i)).
Proof.
  intros Z0 Es NA NC SL.
  assert (Z1 : ((0 <= n)%Z /\ (0 <= m)%Z /\ pV s = n /\ pC s = m) /\ (zlen (q_x (p_b s)) = n /\ zlen (q_lb (p_b s)) = n /\ zlen (q_ub (p_b s)) = n) /\
    (zlen (p_lbA s) = m /\ zlen (p_ubA s) = m) /\ (zlen (p_Ax s) = m /\ zlen (p_Ax_l s) = m /\ zlen (p_Ax_u s) = m)) by (subst s; destruct Z0; repeat split; assumption).
  clear Es Z0. destruct Z1 as ((sz_n & sz_m & sz_V & sz_C) & (sz_x & sz_lb & sz_ub) & (sz_lbA & sz_ubA) & (sz_Ax & sz_Axl & sz_Axu)). unfold p_setupAuxiliaryQPbounds. cbv zeta. rewrite sz_V.
  eapply pc_bind with (P := fun c => match c with Next (lb, ub) => (zlen lb = n /\ zlen ub = n) /\
    forall i, (0 <= i < n)%Z -> lim (o_boundRelaxation (p_opts s)) (tyB s i) (wsB s i) (zs (st_status auxB) i) (xB s i) (lB s i) (uB s i) (zn 0 lb i) (zn 0 ub i) | Brk _ => True end).
  { eapply pc_mono; [apply (pc_forb_up (fun k (p : arr * arr) => let '(lb, ub) := p in (zlen lb = n /\ zlen ub = n) /\
      (forall i, (0 <= i < k)%Z -> lim (o_boundRelaxation (p_opts s)) (tyB s i) (wsB s i) (zs (st_status auxB) i) (xB s i) (lB s i) (uB s i) (zn 0 lb i) (zn 0 ub i)) /\
      forall i, (k <= i)%Z -> zn 0 lb i = lB s i /\ zn 0 ub i = uB s i) (fun _ => True))|].
    - split; [auto|]. split; [intros; lia|]. intros i Hi. split; reflexivity.
    - intros i [lb ub] Hi ((L1 & L2) & D & U).
      destruct (st_getStatus (p_bounds s) i) as [v| |] eqn:Ev; try exact I. cbn [bind]. apply status_in in Ev; [|change (st_n (p_bounds s)) with (pV s); rewrite sz_V; exact Hi]. fold (wsB s i) in Ev. subst v.
      destruct (st_getType (p_bounds s) i) as [t| |] eqn:Et; try exact I. cbn [bind]. apply type_in in Et; [|change (st_n (p_bounds s)) with (pV s); rewrite sz_V; exact Hi]. fold (tyB s i) in Et. subst t.
      rx. rx. rx. eapply pc_bind; [apply lim_ok|]. destruct (U i ltac:(lia)) as (-> & ->). intros [[l u]|] W; [|exact I]. wx. wx. cbn [pc].
      split; [now rewrite !zlen_zupd|]. split.
      + intros k Hk. destruct (Z.eq_dec k i) as [->|NE].
        * rewrite !zn_zupd_eq by lia. destruct W as (a & [E|W] & W'); [|apply W]. apply status_in in E; [|lia]. rewrite <- E. exact W'.
        * rewrite !zn_zupd_ne by lia. apply D. lia.
      + intros k Hk. rewrite !zn_zupd_ne by lia. apply U. lia.
    - intros [[lb ub]|e]; [|auto]. rewrite Z.max_r by lia. intros (L & D & _). auto. }
  intros [[lb ub]|[lb ub]]; [|discriminate]. intros ((Llb & Lub) & VB).
  set (s1 := up_b (N := N) _ s). replace (pC s1) with m by (symmetry; exact sz_C).
  change (p_cons s1) with (p_cons s). change (p_lbA s1) with (p_lbA s). change (p_ubA s1) with (p_ubA s). change (p_Ax_l s1) with (p_Ax_l s). change (p_Ax_u s1) with (p_Ax_u s).
  eapply pc_bind with (P := fun c => match c with Next (lbA, ubA, Al, Au) =>
    forall i, (0 <= i < m)%Z -> lim (o_boundRelaxation (p_opts s)) (tyC s i) (wsC s i) (zs (st_status auxC) i) (zn 0 (p_Ax s) i) (lC s i) (uC s i) (zn 0 lbA i) (zn 0 ubA i) /\
      zn 0 Al i = zn 0 (p_Ax s) i - zn 0 lbA i /\ zn 0 Au i = zn 0 ubA i - zn 0 (p_Ax s) i | Brk _ => True end).
  { eapply pc_mono; [apply (pc_forb_up (fun k (p : arr * arr * arr * arr) => let '(lbA, ubA, Al, Au) := p in (zlen lbA = m /\ zlen ubA = m /\ zlen Al = m /\ zlen Au = m) /\
      (forall i, (0 <= i < k)%Z -> lim (o_boundRelaxation (p_opts s)) (tyC s i) (wsC s i) (zs (st_status auxC) i) (zn 0 (p_Ax s) i) (lC s i) (uC s i) (zn 0 lbA i) (zn 0 ubA i) /\
        zn 0 Al i = zn 0 (p_Ax s) i - zn 0 lbA i /\ zn 0 Au i = zn 0 ubA i - zn 0 (p_Ax s) i) /\
      forall i, (k <= i)%Z -> zn 0 lbA i = lC s i /\ zn 0 ubA i = uC s i /\ zn 0 Al i = zn 0 (p_Ax_l s) i /\ zn 0 Au i = zn 0 (p_Ax_u s) i) (fun _ => True))|].
    - split; [auto|]. split; [intros; lia|]. intros i Hi. repeat split; reflexivity.
    - intros i [[[lbA ubA] Al] Au] Hi ((L1 & L2 & L3 & L4) & D & U).
      destruct (st_getStatus (p_cons s) i) as [v| |] eqn:Ev; try exact I. cbn [bind]. apply status_in in Ev; [|change (st_n (p_cons s)) with (pC s); rewrite sz_C; exact Hi]. fold (wsC s i) in Ev. subst v.
      destruct (st_getType (p_cons s) i) as [t| |] eqn:Et; try exact I. cbn [bind]. apply type_in in Et; [|change (st_n (p_cons s)) with (pC s); rewrite sz_C; exact Hi]. fold (tyC s i) in Et. subst t.
      rx. rx. rx. rx. destruct (U i ltac:(lia)) as (-> & -> & -> & ->). destruct (SL i Hi) as (-> & ->).
      eapply pc_bind; [apply lim_ok|]. intros [[l u]|] W; [|exact I]. wx. wx. wx. wx. cbn [pc].
      split; [rewrite !zlen_zupd; auto|]. split.
      + intros k Hk. destruct (Z.eq_dec k i) as [->|NE].
        * rewrite !zn_zupd_eq by lia. split; [|split; rnum; reflexivity]. destruct W as (a & [E|W] & W'); [|apply W]. apply status_in in E; [|lia]. rewrite <- E. exact W'.
        * rewrite !zn_zupd_ne by lia. apply D. lia.
      + intros k Hk. rewrite !zn_zupd_ne by lia. apply U. lia.
    - intros [[[[lbA ubA] Al] Au]|e]; [|auto]. rewrite Z.max_r by lia. intros (L & D & _). auto. }
  intros [[[[lbA ubA] Al] Au]|[[[lbA ubA] Al] Au]]; [|discriminate]. intros VC. cbn [pc]. intros _. exists lb, ub, lbA, ubA, Al, Au. auto.
Qed.

(** ** The guessed solution *)
Lemma solution n m M Am (s : qp N) (xOpt yOpt : option arr) : sized eps zero infty n m s -> p_A s = Some M -> astored eps zero infty m n M Am ->
  olen (N := N) n xOpt -> olen (N := N) (n + m) yOpt ->
  pc (p_setupAuxiliaryQPsolution (N := N) xOpt yOpt s) (fun s' => exists x y Ax Al Au : arr,
    s' = up_b (N := N) (set_q_y (N := N) y) (set_p_Ax_u (N := N) Au (set_p_Ax_l (N := N) Al (set_p_Ax (N := N) Ax (up_b (N := N) (set_q_x (N := N) x) s)))) /\
    sized eps zero infty n m s' /\ (forall i, (0 <= i < n)%Z -> zn 0 x i = guess_at xOpt i) /\ (forall i, (0 <= i < n + m)%Z -> zn 0 y i = guess_at yOpt i) /\
    (forall i, (0 <= i < m)%Z -> zn 0 Ax i = rsum 0 n (fun j => Am i j * zn 0 x j) /\ zn 0 Al i = zn 0 Ax i /\ zn 0 Au i = zn 0 Ax i)).
Proof.
  intros Z0 HA AS Hx Hy. destruct Z0. destruct (astored_products eps zero infty zero_b m n M Am sz_m sz_n AS) as (PT & _).
  unfold p_setupAuxiliaryQPsolution. cbv zeta. rewrite sz_V, sz_C.
  assert (FZ : forall k (a : arr), (0 <= k)%Z -> zlen a = k -> pc (for_up 0 k (fun i a => wr (A := R) a i (@n0 N)) a) (fun a' => zlen a' = k /\ forall i, (0 <= i < k)%Z -> zn 0 a' i = 0)).
  { intros k a Hk La. assert (W : wp (for_up 0 k (fun i a => wr (A := R) a i (@n0 N)) a) (fun a' => zlen a' = k /\ forall i, (0 <= i < k)%Z -> zn 0 a' i = 0)).
    { apply (wp_fill 0 (fun _ => 0) k); [lia| |]; [intros i t Hi Lt; wx; reflexivity|intros a' L V _; split; [lia|exact V]]. }
    apply wp_inv in W as (a' & -> & K). exact K. }
  assert (CP : forall (Ax a : arr), zlen Ax = m -> zlen a = m -> for_up 0 m (fun j a => v <- rd Ax j ;; wr a j v) a = Ok Ax).
  { intros Ax a L1 L2. apply (copy_eq (N := N)); auto. }
  eapply pc_bind with (P := fun s1 => exists x Ax Al Au : arr, s1 = set_p_Ax_u (N := N) Au (set_p_Ax_l (N := N) Al (set_p_Ax (N := N) Ax (up_b (N := N) (set_q_x (N := N) x) s))) /\
     zlen x = n /\ zlen Ax = m /\ zlen Al = m /\ zlen Au = m /\ (forall i, (0 <= i < n)%Z -> zn 0 x i = guess_at xOpt i) /\
     (forall i, (0 <= i < m)%Z -> zn 0 Ax i = rsum 0 n (fun j => Am i j * zn 0 x j) /\ zn 0 Al i = zn 0 Ax i /\ zn 0 Au i = zn 0 Ax i)).
  { destruct xOpt as [xo|].
    - cbn [olen] in Hx.
      assert (W : wp (for_up 0 n (fun i a => v <- rd xo i ;; wr a i v) (q_x (p_b s))) (fun a' => zlen a' = n /\ forall i, (0 <= i < n)%Z -> zn 0 a' i = zn 0 xo i)).
      { apply (wp_fill 0 (fun i => zn 0 xo i) n); [rcar; lia| |]; [intros i t Hi Lt; rx; rewrite wr_ok by (rcar; lia); reflexivity|intros a' L V _; split; [rcar; lia|exact V]]. }
      apply wp_inv in W as (x & E & Lx & Vx). rcar. rewrite E. cbn [bind]. unfold p_theA. rewrite HA. cbn [bind].
      destruct (PT x (p_Ax s)) as (Ax & EA & LA & VA); [lia|rcar; lia|]. rcar. rewrite EA. cbn [bind]. assert (LA' : zlen Ax = m) by (rcar; lia).
      rewrite (CP Ax (p_Ax_l s)) by assumption. cbn [bind]. rewrite (CP Ax (p_Ax_u s)) by assumption. cbn [bind pc].
      exists x, Ax, Ax, Ax. split; [reflexivity|]. repeat split; auto.
    - eapply pc_bind; [apply (FZ n); auto|]. intros x (Lx & Vx). eapply pc_bind; [apply (FZ m); auto|]. intros Ax (LA & VA).
      eapply pc_bind; [apply (FZ m); auto|]. intros Al (Ll & Vl). eapply pc_bind; [apply (FZ m); auto|]. intros Au (Lu & Vu). cbn [pc].
      exists x, Ax, Al, Au. split; [reflexivity|]. repeat split; auto.
      + rewrite VA by assumption. symmetry. apply rsum_0. intros j Hj. rewrite Vx by lia. cbn. ring.
      + now rewrite Vl, VA.
      + now rewrite Vu, VA. }
  intros s1 (x & Ax & Al & Au & -> & Lx & LA & Ll & Lu & Vx & VA). cbn [p_b set_p_Ax_u set_p_Ax_l set_p_Ax up_b set_p_b q_y set_q_x].
  assert (W : wp (for_up 0 (n + m) (fun i a => v <- match yOpt with Some yo => rd yo i | None => Ok (@n0 N) end ;; wr a i v) (q_y (p_b s))) (fun a' => zlen a' = (n + m)%Z /\ forall i, (0 <= i < n + m)%Z -> zn 0 a' i = guess_at yOpt i)).
  { apply (wp_fill 0 (fun i => guess_at yOpt i) (n + m)); [rcar; lia| |]; [|intros a' L V _; split; [rcar; lia|exact V]].
    intros i t Hi Lt. destruct yOpt as [yo|]; [cbn [olen] in Hy; rx|cbn [bind]]; rewrite wr_ok by (rcar; lia); reflexivity. }
  apply wp_inv in W as (y & E & Ly & Vy). rcar. rewrite E. cbn [bind pc]. exists x, y, Ax, Al, Au. split; [reflexivity|]. split; [constructor; auto|]. auto.
Qed.

(** ** The wanted working set *)
Lemma wanted k n (f : Z -> res SubjectToStatus) (aux : subjectTo) : (0 <= n)%Z ->
  pc (forb_up 0 n (fun i aux => v <- f i ;; '(r, aux) <- st_setup k aux i v ;; if r =r? SUCCESSFUL_RETURN then Ok (Next aux) else Ok (Brk aux)) aux)
    (fun c => match c with Next aux' => st_n aux' = st_n aux /\ forall i, (0 <= i < n)%Z -> f i = Ok (zs (st_status aux') i) /\ settled (zs (st_status aux') i) | Brk _ => True end).
Proof.
  intros Hn. eapply pc_mono; [apply (pc_forb_up (fun k' aux' => st_n aux' = st_n aux /\ forall i, (0 <= i < k')%Z -> f i = Ok (zs (st_status aux') i) /\ settled (zs (st_status aux') i)) (fun _ => True))|].
  - split; [reflexivity|]. intros; lia.
  - intros i a Hi (En & D). destruct (f i) as [v| |] eqn:Ef; try exact I. cbn [bind].
    destruct (st_setup k a i v) as [[r a']| |] eqn:ES; try exact I. cbn [bind]. pose proof (c_setup k a i v) as C. rewrite ES in C. cbn [pc] in C. destruct C as ((C1 & _ & C3 & _) & C2). cbn [fst snd] in *.
    destruct (r =r? SUCCESSFUL_RETURN) eqn:Er; [|exact I]. assert (r = SUCCESSFUL_RETURN) as -> by (destruct r; try discriminate Er; reflexivity). cbn [pc].
    split; [congruence|]. intros j Hj. destruct (Z.eq_dec j i) as [->|NE].
    + rewrite C2 by reflexivity. split; [exact Ef|]. destruct (setup_settled _ _ _ _ _ ES eq_refl) as [-> |[-> | ->]]; unfold settled; auto.
    + rewrite C3 by lia. apply D. lia.
  - intros [a|e]; auto. rewrite Z.max_r by lia. auto.
Qed.
Lemma obtained xOpt yOpt gB gC (s : qp N) n m : (0 <= n)%Z -> (0 <= m)%Z -> pV s = n -> pC s = m ->
  pc (p_obtainAuxiliaryWorkingSet (N := N) xOpt yOpt gB gC s (st_new n) (st_new m)) (fun '(r, auxB, auxC) => r = SUCCESSFUL_RETURN -> st_n auxB = n /\ st_n auxC = m /\
    (forall i, (0 <= i < n)%Z -> auxStatus (N := N) xOpt yOpt gB (p_b s) i = Ok (zs (st_status auxB) i) /\ settled (zs (st_status auxB) i)) /\
    (forall i, (0 <= i < m)%Z -> auxStatusC (N := N) xOpt yOpt gC s i = Ok (zs (st_status auxC) i) /\ settled (zs (st_status auxC) i))).
Proof.
  intros Hn Hm EV EC. unfold p_obtainAuxiliaryWorkingSet, obtainAuxiliaryWorkingSet. change (nV (p_b s)) with (pV s). rewrite EV, EC.
  apply pc_assoc. eapply pc_bind; [apply (wanted KBounds n); exact Hn|]. intros [aB|aB] WB; [|let X := fresh in intros X; discriminate X]. cbn [bind].
  change (negb (SUCCESSFUL_RETURN =r? SUCCESSFUL_RETURN)) with false. cbn iota.
  eapply pc_bind; [apply (wanted KConstraints m); exact Hm|]. intros [aC|aC] WC; [|let X := fresh in intros X; discriminate X]. cbn [pc]. intros _.
  assert (SN : forall k, (0 <= k)%Z -> st_n (st_new k) = k) by (intros k Hk; unfold st_new, st_init; destruct (Z.ltb_spec k 0); [lia|reflexivity]).
  destruct WB as (NB & WB), WC as (NC & WC). rewrite SN in NB, NC by assumption. auto.
Qed.
(** the wanted statuses agree with fitting multipliers *)
Definition agrees (a : SubjectToStatus) (y : R) : Prop := match a with ST_INACTIVE => y = 0 | ST_LOWER => 0 <= y | _ => y <= 0 end.
Lemma agrees_0 a y : y = 0 -> agrees a y.
Proof. intros ->. destruct a; cbn; lra. Qed.
Lemma agrees_B xOpt yOpt gB (s : qp N) n i : pV s = n -> (0 <= i < n)%Z -> olen (N := N) n yOpt -> tyB s i <> ST_EQUALITY -> fitsB (guess_at yOpt i) gB i ->
  forall v, auxStatus (N := N) xOpt yOpt gB (p_b s) i = Ok v -> settled v -> agrees v (guess_at yOpt i).
Proof.
  intros EV Hi Hy NE F v E S. unfold auxStatus in E. cbv zeta in E.
  assert (ET : forall t, st_getType (q_bounds (p_b s)) i = Ok t -> is_stt t ST_EQUALITY = false).
  { intros t Et. apply type_in in Et; [|change (0 <= i < pV s)%Z; lia]. subst t. change (is_stt (tyB s i) ST_EQUALITY = false). destruct (tyB s i); try reflexivity; contradiction. }
  destruct gB as [gb|].
  - destruct (st_getType (q_bounds (p_b s)) i) as [t| |]; try discriminate. cbn [bind] in E. rewrite (ET t eq_refl) in E. cbn [fitsB] in F.
    apply status_inv in E as [E|E]; [|subst v; destruct S as [S|[S|S]]; discriminate S]. rewrite <- E in F. destruct S as [-> |[-> | ->]]; exact F.
  - destruct yOpt as [y|]; [|apply agrees_0; reflexivity]. cbn [guess_at fitsB olen] in *. rewrite (rd_ok 0) in E by (rcar; lia). cbn [bind] in E. revert E. rnum.
    destruct (Rltb_spec eps (zn 0 y i)) as [H1|H1]; [intros E; injection E as <-; cbn; lra|].
    destruct (Rltb_spec (zn 0 y i) (- eps)) as [H2|H2]; [intros E; injection E as <-; cbn; lra|]. intros _. apply agrees_0.
    destruct F as [F|F]; [exact F|]. unfold Rabs in F. destruct (Rcase_abs _); lra.
Qed.
Lemma agrees_C xOpt yOpt gC (s : qp N) n m i : pV s = n -> pC s = m -> (0 <= n)%Z -> (0 <= i < m)%Z -> olen (N := N) (n + m) yOpt -> fitsB (guess_at yOpt (n + i)) gC i ->
  (tyC s i = ST_EQUALITY -> forall gc, gC = Some gc -> 0 <= guess_at yOpt (n + i)) ->
  forall v, auxStatusC (N := N) xOpt yOpt gC s i = Ok v -> settled v -> agrees v (guess_at yOpt (n + i)).
Proof.
  intros EV EC Hn Hi Hy F EQ v E S. unfold auxStatusC in E. cbv zeta in E. destruct gC as [gc|].
  - destruct (st_getStatus gc i) as [w| |] eqn:Ew; try discriminate. cbn [bind] in E. destruct (st_getType (p_cons s) i) as [t| |] eqn:Et; try discriminate. cbn [bind] in E.
    apply type_in in Et; [|change (0 <= i < pC s)%Z; lia]. fold (tyC s i) in Et. subst t. cbn [fitsB] in F. injection E as E.
    assert (DE : tyC s i = ST_EQUALITY \/ is_stt (tyC s i) ST_EQUALITY = false) by (destruct (tyC s i); auto).
    destruct DE as [DE|DE]; [rewrite DE in E; change (is_stt ST_EQUALITY ST_EQUALITY) with true in E; subst v; exact (EQ DE gc eq_refl)|].
    rewrite DE in E. subst w. apply status_inv in Ew as [Ew|Ew]; [|subst v; destruct S as [S|[S|S]]; discriminate S]. rewrite <- Ew in F. destruct S as [-> |[-> | ->]]; exact F.
  - destruct yOpt as [y|]; [|apply agrees_0; reflexivity]. cbn [guess_at fitsB olen] in *. rewrite EV in E. rewrite (rd_ok 0) in E by (rcar; lia). cbn [bind] in E. revert E. rnum.
    destruct (Rltb_spec eps (zn 0 y (n + i))) as [H1|H1]; [intros E; injection E as <-; cbn; lra|].
    destruct (Rltb_spec (zn 0 y (n + i)) (- eps)) as [H2|H2]; [intros E; injection E as <-; cbn; lra|]. intros _. apply agrees_0.
    destruct F as [F|F]; [exact F|]. unfold Rabs in F. destruct (Rcase_abs _); lra.
Qed.

(** ** The steps that leave the data alone *)
Definition opts3 (o o' : options N) : Prop := o_boundRelaxation o' = o_boundRelaxation o /\ o_boundTolerance o' = o_boundTolerance o /\ o_enableRamping o' = o_enableRamping o.
Definition bkeep (b b' : qpb N) : Prop := (q_x b' = q_x b /\ q_y b' = q_y b /\ q_lb b' = q_lb b /\ q_ub b' = q_ub b /\ q_g b' = q_g b /\ q_bounds b' = q_bounds b) /\ opts3 (q_opts b) (q_opts b').
Lemma bk_refl b : bkeep b b.
Proof. repeat split. Qed.
Lemma bk_ens b : bkeep b (ensure_regularisation (N := N) b).
Proof. unfold ensure_regularisation. destruct (o_enableRegularisation _); repeat split. Qed.
Lemma bk_htype h b b' : bkeep (set_q_htype (N := N) h b) b' -> bkeep b b'.
Proof. intros K. exact K. Qed.
Lemma bk_determine b : pc (determineHessianType (N := N) b) (fun '(_, b') => bkeep b b').
Proof.
  unfold determineHessianType. cbv zeta.
  destruct (q_htype b); destruct (q_H b) as [M|]; try (repeat split; fail); try (cbn [pc]; apply bk_htype with HST_ZERO, bk_ens); try (cbn [pc]; apply bk_ens).
  apply pc_any. intros d. destruct (negb d); [repeat split|].
  eapply pc_bind; [apply (pc_forb_up (fun _ _ => True) (fun e => bkeep b (snd e))); auto|].
  - intros i [isId isZ] Hi _. apply pc_any. intros c. match goal with |- pc (if ?t then _ else _) _ => destruct t end; [repeat split|]. match goal with |- pc (if ?t then _ else _) _ => destruct t end; repeat split.
  - intros [[isId isZ]|[r b']] K; [|exact K]. cbn [pc]. destruct isZ, isId; try (repeat split; fail); (apply bk_htype with HST_POSDEF, bk_htype with HST_IDENTITY, bk_htype with HST_ZERO, bk_ens) || (apply bk_htype with HST_POSDEF, bk_htype with HST_ZERO, bk_ens).
Qed.
Lemma bk_regularise b : pc (regulariseHessian (N := N) b) (fun '(_, b') => bkeep b b').
Proof.
  unfold regulariseHessian. destruct (negb _); [apply bk_refl|]. destruct (is_hst _ _); [apply bk_refl|]. destruct (usingReg _); [apply bk_refl|]. destruct (is_hst _ _).
  - apply pc_any. intros v. repeat split.
  - apply pc_any. intros M. apply pc_any. intros v. cbv zeta. apply pc_any. intros [r M']. repeat split.
Qed.
Definition retyped (b b' : subjectTo) : Prop := st_n b' = st_n b /\ st_status b' = st_status b.
Lemma set_type b i t : pc (b_setType b i t) (fun b' => retyped b b' /\ forall j, (0 <= j)%Z -> zt (st_type b') j = zt (st_type b) j \/ (j = i /\ zt (st_type b') j = t)).
Proof.
  unfold b_setType, st_setType. destruct (_ && _); [|cbn; repeat split; auto]. destruct (wr (st_type b) i t) as [l| |] eqn:E; try exact I. cbn [bind pc].
  apply wr_inv in E as (Hi & ->). split; [repeat split|]. intros j Hj. cbn [st_type st_set_type]. destruct (Z.eq_dec j i) as [->|NE]; [right; split; [reflexivity|now rewrite zn_zupd_eq]|left; now rewrite zn_zupd_ne by lia].
Qed.
Lemma typed (s : qp N) m : (0 <= m)%Z -> pC s = m -> zlen (p_lbA s) = m -> zlen (p_ubA s) = m ->
  pc (p_setupSubjectToType (N := N) (Some (q_lb (p_b s))) (Some (q_ub (p_b s))) (Some (p_lbA s)) (Some (p_ubA s)) s) (fun s' => exists bd cn,
    s' = set_p_cons (N := N) cn (set_p_b (N := N) (set_q_bounds (N := N) bd (p_b s)) s) /\ retyped (p_bounds s) bd /\ retyped (p_cons s) cn /\
    forall i, (0 <= i < m)%Z -> zt (st_type cn) i = ST_EQUALITY -> uC s i - o_boundTolerance (p_opts s) < lC s i).
Proof.
  intros Hm EC Ll Lu. unfold p_setupSubjectToType.
  eapply pc_bind with (P := fun b => exists bd, b = set_q_bounds (N := N) bd (p_b s) /\ retyped (p_bounds s) bd).
  { unfold setupSubjectToType. apply pc_any. intros lo. apply pc_any. intros up. cbv zeta.
    eapply pc_bind; [apply (pc_for_up (retyped (p_bounds s))); [repeat split|]|intros bd K; exists bd; auto].
    assert (ST : forall i t b, retyped (p_bounds s) b -> pc (b_setType b i t) (retyped (p_bounds s))) by (intros i t b (K1 & K2); eapply pc_mono; [apply set_type|]; intros b' ((X1 & X2) & _); split; congruence).
    intros i b K. do 2 (apply pc_any; intro). destruct (_ && _ && _); [now apply ST|]. do 2 (apply pc_any; intro). destruct (_ && _ && _); now apply ST. }
  intros b (bd & -> & KB). cbv zeta. apply pc_any. intros lo. apply pc_any. intros up.
  set (s1 := set_p_b (N := N) _ s). replace (pC s1) with m by (symmetry; exact EC). change (p_lbA s1) with (p_lbA s). change (p_ubA s1) with (p_ubA s). change (p_cons s1) with (p_cons s). change (p_opts s1) with (p_opts s).
  eapply pc_bind; [apply (pc_up (fun k cn => retyped (p_cons s) cn /\ forall i, (0 <= i < k)%Z -> zt (st_type cn) i = ST_EQUALITY -> uC s i - o_boundTolerance (p_opts s) < lC s i) 0 m _ _ Hm); [split; [repeat split|intros; lia]|]|].
  - intros i c Hi ((K1 & K2) & D).
    assert (ST : forall t, (t = ST_EQUALITY -> uC s i - o_boundTolerance (p_opts s) < lC s i) -> pc (b_setType c i t) (fun cn => retyped (p_cons s) cn /\ forall j, (0 <= j < i + 1)%Z -> zt (st_type cn) j = ST_EQUALITY -> uC s j - o_boundTolerance (p_opts s) < lC s j)).
    { intros t T. unfold b_setType, st_setType. destruct (Z.leb_spec 0 i); [|lia]. destruct (Z.ltb_spec i (st_n c)); [|unfold pC in EC; lia]. cbn [andb].
      destruct (wr (st_type c) i t) as [l| |] eqn:E; try exact I. apply wr_inv in E as (HW & ->). cbn [bind pc]. split; [split; [exact K1|exact K2]|]. cbn [st_type st_set_type].
      intros j Hj. destruct (Z.eq_dec j i) as [->|NE]; [rewrite zn_zupd_eq by lia; exact T|rewrite zn_zupd_ne by lia; apply D; lia]. }
    destruct (st_getType c i) as [t| |] eqn:Et; try exact I. cbn [bind]. apply type_in in Et; [|unfold pC in EC; lia].
    destruct (is_stt t ST_DISABLED) eqn:ED.
    { cbn [pc]. split; [split; assumption|]. intros j Hj. destruct (Z.eq_dec j i) as [->|NE]; [|apply D; lia]. rewrite <- Et. intros ->. discriminate ED. }
    rx. rx. destruct (_ && _ && _); [apply ST; discriminate|]. cbn [bind]. rnum. destruct (Rltb_spec (zn 0 (p_ubA s) i - o_boundTolerance (p_opts s)) (zn 0 (p_lbA s) i)) as [H|H].
    + destruct (_ && _ && _); apply ST; [intros _; exact H|discriminate].
    + rewrite andb_false_r. cbn [andb]. apply ST. discriminate.
  - intros cn (K & D). cbn [pc]. exists bd, cn. auto.
Qed.

(** ** Fields after updates *)
Lemma lay_solution (s s' : qp N) (x y Ax Al Au : arr) :
  s' = up_b (N := N) (set_q_y (N := N) y) (set_p_Ax_u (N := N) Au (set_p_Ax_l (N := N) Al (set_p_Ax (N := N) Ax (up_b (N := N) (set_q_x (N := N) x) s)))) ->
  (q_x (p_b s') = x /\ q_y (p_b s') = y /\ p_Ax s' = Ax /\ p_Ax_l s' = Al /\ p_Ax_u s' = Au) /\ (q_lb (p_b s') = q_lb (p_b s) /\ q_ub (p_b s') = q_ub (p_b s) /\ q_g (p_b s') = q_g (p_b s)) /\
  (p_A s' = p_A s /\ p_lbA s' = p_lbA s /\ p_ubA s' = p_ubA s) /\ p_opts s' = p_opts s /\ p_bounds s' = p_bounds s /\ p_cons s' = p_cons s.
Proof. intros ->. destruct s as [b]; destruct b. repeat split. Qed.
Lemma lay_gradient n (s s' : qp N) (g : arr) : s' = up_b (N := N) (set_q_g (N := N) g) s ->
  (p_Ax s' = p_Ax s /\ p_Ax_l s' = p_Ax_l s /\ p_Ax_u s' = p_Ax_u s) /\ (q_x (p_b s') = q_x (p_b s) /\ q_y (p_b s') = q_y (p_b s) /\ q_g (p_b s') = g) /\ (p_bounds s' = p_bounds s /\ p_cons s' = p_cons s) /\
  p_opts s' = p_opts s /\ forall Hm, hess eps zero infty n (p_b s') Hm -> hess eps zero infty n (p_b s) Hm.
Proof. intros ->. destruct s as [b]; destruct b. refine (conj (conj eq_refl (conj eq_refl eq_refl)) (conj (conj eq_refl (conj eq_refl eq_refl)) (conj (conj eq_refl eq_refl) (conj eq_refl (fun Hm H => H))))). Qed.
Lemma lay_limits n (s s' : qp N) (lb ub lbA ubA Al Au : arr) :
  s' = set_p_Ax_u (N := N) Au (set_p_Ax_l (N := N) Al (set_p_ubA (N := N) ubA (set_p_lbA (N := N) lbA (up_b (N := N) (fun b => set_q_ub (N := N) ub (set_q_lb (N := N) lb b)) s)))) ->
  (q_x (p_b s') = q_x (p_b s) /\ q_y (p_b s') = q_y (p_b s) /\ q_g (p_b s') = q_g (p_b s)) /\ (q_lb (p_b s') = lb /\ q_ub (p_b s') = ub /\ p_lbA s' = lbA /\ p_ubA s' = ubA) /\ (p_Ax_l s' = Al /\ p_Ax_u s' = Au) /\
  (p_bounds s' = p_bounds s /\ p_cons s' = p_cons s) /\ p_opts s' = p_opts s /\ forall Hm, hess eps zero infty n (p_b s') Hm -> hess eps zero infty n (p_b s) Hm.
Proof.
  intros ->. destruct s as [b]; destruct b.
  refine (conj (conj eq_refl (conj eq_refl eq_refl)) (conj (conj eq_refl (conj eq_refl (conj eq_refl eq_refl))) (conj (conj eq_refl eq_refl) (conj (conj eq_refl eq_refl) (conj eq_refl (fun Hm H => H)))))).
Qed.
Lemma lay_status n v (s s' : qp N) : s' = up_b (N := N) (set_q_status (N := N) v) s ->
  (q_x (p_b s') = q_x (p_b s) /\ q_y (p_b s') = q_y (p_b s) /\ q_g (p_b s') = q_g (p_b s)) /\ (q_lb (p_b s') = q_lb (p_b s) /\ q_ub (p_b s') = q_ub (p_b s) /\ p_lbA s' = p_lbA s /\ p_ubA s' = p_ubA s) /\ (p_Ax_l s' = p_Ax_l s /\ p_Ax_u s' = p_Ax_u s) /\
  (p_bounds s' = p_bounds s /\ p_cons s' = p_cons s) /\ p_opts s' = p_opts s /\ forall Hm, hess eps zero infty n (p_b s') Hm -> hess eps zero infty n (p_b s) Hm.
Proof.
  intros ->. destruct s as [b]; destruct b.
  refine (conj (conj eq_refl (conj eq_refl eq_refl)) (conj (conj eq_refl (conj eq_refl (conj eq_refl eq_refl))) (conj (conj eq_refl eq_refl) (conj (conj eq_refl eq_refl) (conj eq_refl (fun Hm H => H)))))).
Qed.

(** ** C36 with constraints
    Whenever the preparation succeeds (ramping switched off), the data handed to the
    homotopy is the stored one, the iterate is the guess, the gradient is the one the
    iterate is stationary for, x and Ax lie within the new limits and on the active
    ones, and the slacks are right.  The iterate satisfies all optimality conditions
    when each multiplier fits the guess. *)
Theorem C36_QProblem n m M Am (s : qp N) (xOpt yOpt : option arr) gB gC (Rin : option arr) d s' :
  sized eps zero infty n m s -> p_A s = Some M -> astored eps zero infty m n M Am ->
  olen (N := N) n xOpt -> olen (N := N) (n + m) yOpt ->
  (forall i, (0 <= i)%Z -> wsB s i = ST_UNDEFINED) -> (forall i, (0 <= i)%Z -> wsC s i = ST_UNDEFINED) ->
  0 <= o_boundRelaxation (p_opts s) -> o_enableRamping (p_opts s) = false ->
  p_prepareInitial (N := N) junk xOpt yOpt gB gC Rin s = Ok (SUCCESSFUL_RETURN, d, s') ->
  d = mkData (N := N) (q_g (p_b s)) (q_lb (p_b s)) (q_ub (p_b s)) (p_lbA s) (p_ubA s) /\
  (forall i, (0 <= i < n)%Z -> xB s' i = guess_at xOpt i) /\ (forall i, (0 <= i < n + m)%Z -> yB s' i = guess_at yOpt i) /\
  (forall i, (0 <= i < n)%Z -> lB s' i <= xB s' i <= uB s' i /\ (wsB s' i = ST_LOWER -> xB s' i = lB s' i) /\ (wsB s' i = ST_UPPER -> xB s' i = uB s' i)) /\
  (forall i, (0 <= i < m)%Z -> lC s' i <= act n Am s' i <= uC s' i /\ (wsC s' i = ST_LOWER -> act n Am s' i = lC s' i) /\ (wsC s' i = ST_UPPER -> act n Am s' i = uC s' i)) /\
  slacks eps zero infty n m Am s' /\
  forall Hm, hess eps zero infty n (p_b s') Hm ->
    (forall i, (0 <= i < n)%Z -> zn 0 (q_g (p_b s')) i = yB s' i - matvec n Hm (xB s') i + rsum 0 m (fun j => Am j i * yB s' (n + j))) /\
    ((forall i, (0 <= i < n)%Z -> tyB s' i = ST_EQUALITY \/ fitsB (guess_at yOpt i) gB i) ->
     (forall i, (0 <= i < m)%Z -> tyC s' i = ST_EQUALITY \/ fitsC s (guess_at yOpt (n + i)) gC i) ->
     pair_optimal eps zero infty n m Hm Am s').
Proof.
  intros Z0 HA AS Hx Hy FB FC Rlx NR E.
  match type of E with ?t = _ => cut (pc t (fun '(r, d, s') => r = SUCCESSFUL_RETURN ->
    d = mkData (N := N) (q_g (p_b s)) (q_lb (p_b s)) (q_ub (p_b s)) (p_lbA s) (p_ubA s) /\
    (forall i, (0 <= i < n)%Z -> xB s' i = guess_at xOpt i) /\ (forall i, (0 <= i < n + m)%Z -> yB s' i = guess_at yOpt i) /\
    (forall i, (0 <= i < n)%Z -> lB s' i <= xB s' i <= uB s' i /\ (wsB s' i = ST_LOWER -> xB s' i = lB s' i) /\ (wsB s' i = ST_UPPER -> xB s' i = uB s' i)) /\
    (forall i, (0 <= i < m)%Z -> lC s' i <= act n Am s' i <= uC s' i /\ (wsC s' i = ST_LOWER -> act n Am s' i = lC s' i) /\ (wsC s' i = ST_UPPER -> act n Am s' i = uC s' i)) /\
    slacks eps zero infty n m Am s' /\
    forall Hm, hess eps zero infty n (p_b s') Hm ->
      (forall i, (0 <= i < n)%Z -> zn 0 (q_g (p_b s')) i = yB s' i - matvec n Hm (xB s') i + rsum 0 m (fun j => Am j i * yB s' (n + j))) /\
      ((forall i, (0 <= i < n)%Z -> tyB s' i = ST_EQUALITY \/ fitsB (guess_at yOpt i) gB i) ->
       (forall i, (0 <= i < m)%Z -> tyC s' i = ST_EQUALITY \/ fitsC s (guess_at yOpt (n + i)) gC i) ->
       pair_optimal eps zero infty n m Hm Am s'))) end.
  { rewrite E. cbn [pc]. intros K. exact (K eq_refl). }
  clear E d s'. unfold p_prepareInitial. cbv zeta.
  pose proof Z0 as Z0'. destruct Z0'.
  eapply pc_bind; [apply bk_determine|]. intros [r1 b1] ((X1 & X2 & X3 & X4 & X5 & X6) & O1). cbn [p_b up_b set_p_b q_x q_y q_lb q_ub q_g q_bounds set_q_status q_opts] in X1, X2, X3, X4, X5, X6, O1.
  destruct (negb _); [let X := fresh in intros X; discriminate X|].
  set (s1 := set_p_b (N := N) b1 _).
  assert (Z1 : sized eps zero infty n m s1).
  { constructor; auto; unfold s1; cbn [p_b set_p_b]; rewrite ?X1, ?X2, ?X3, ?X4, ?X5; auto. exact (eq_trans (f_equal st_n X6) sz_V). }
  eapply pc_bind; [apply (typed s1 m); [exact sz_m|exact sz_C|exact sz_lbA|exact sz_ubA]|].
  intros s2 (bd & cn & -> & (KB1 & KB2) & (KC1 & KC2) & TE).
  replace (p_bounds s1) with (p_bounds s) in KB1, KB2 by (symmetry; exact X6). change (p_cons s1) with (p_cons s) in KC1, KC2.
  eapply pc_bind; [apply f_setupAll|]. intros [r2 bd2] (NB2 & TB2 & SB2). cbn [snd] in *. change (p_bounds (up_b (N := N) _ _)) with bd in NB2, TB2, SB2.
  destruct (negb _); [let X := fresh in intros X; discriminate X|].
  eapply pc_bind; [apply f_setupAll|]. intros [r3 cn2] (NC2 & TC2 & SC2). cbn [snd] in *. change (p_cons (up_b (N := N) _ _)) with cn in NC2, TC2, SC2.
  destruct (negb _); [let X := fresh in intros X; discriminate X|].
  set (s3 := set_p_cons (N := N) cn2 _).
  assert (Z3 : sized eps zero infty n m s3).
  { destruct Z1. constructor; auto.
    - change (pV s3) with (st_n bd2). rewrite NB2, KB1. exact sz_V.
    - change (pC s3) with (st_n cn2). rewrite NC2, KC1. exact sz_C. }
  assert (D3 : q_lb (p_b s3) = q_lb (p_b s) /\ q_ub (p_b s3) = q_ub (p_b s) /\ q_g (p_b s3) = q_g (p_b s) /\ opts3 (p_opts s) (p_opts s3)) by (split; [exact X3|split; [exact X4|split; [exact X5|exact O1]]]).
  change (p_opts s1) with (q_opts b1) in TE.
  assert (TE3 : forall i, (0 <= i < m)%Z -> zt (st_type cn2) i = ST_EQUALITY -> uC s i - o_boundTolerance (p_opts s) < lC s i).
  { intros i Hi T. rewrite TC2 in T. specialize (TE i Hi T). destruct O1 as (_ & O1 & _). change (p_opts s) with (q_opts (p_b s)). rewrite <- O1. exact TE. }
  assert (IB3 : forall i, (0 <= i)%Z -> zs (st_status bd2) i = ST_INACTIVE \/ zs (st_status bd2) i = ST_UNDEFINED).
  { intros i Hi. destruct (SB2 i Hi) as [Q|[Q|Q]]; auto. right. rewrite Q, KB2. now apply FB. }
  assert (IC3 : forall i, (0 <= i)%Z -> zs (st_status cn2) i = ST_INACTIVE \/ zs (st_status cn2) i = ST_UNDEFINED).
  { intros i Hi. destruct (SC2 i Hi) as [Q|[Q|Q]]; auto. right. rewrite Q, KC2. now apply FC. }
  assert (P3 : p_A s3 = p_A s /\ p_lbA s3 = p_lbA s /\ p_ubA s3 = p_ubA s /\ p_bounds s3 = bd2 /\ p_cons s3 = cn2) by (repeat split).
  clearbody s3. clear s1 Z1 TE X1 X2 X3 X4 X5 X6 O1 b1.
  destruct P3 as (A3 & LA3 & UA3 & BB3 & CC3). destruct D3 as (LB3 & UB3 & G3 & O3).
  eapply pc_bind; [apply (solution n m M Am s3 xOpt yOpt Z3); [rewrite A3; exact HA|exact AS|exact Hx|exact Hy]|].
  intros s4 (x & y & Ax & Al & Au & E4 & Z4 & Vx & Vy & VA).
  assert (D4 : (q_x (p_b s4) = x /\ q_y (p_b s4) = y /\ p_Ax s4 = Ax /\ p_Ax_l s4 = Al /\ p_Ax_u s4 = Au) /\ (q_lb (p_b s4) = q_lb (p_b s) /\ q_ub (p_b s4) = q_ub (p_b s) /\ q_g (p_b s4) = q_g (p_b s)) /\
    (p_A s4 = Some M /\ p_lbA s4 = p_lbA s /\ p_ubA s4 = p_ubA s) /\ opts3 (p_opts s) (p_opts s4) /\ p_bounds s4 = bd2 /\ p_cons s4 = cn2).
  { destruct (lay_solution _ _ _ _ _ _ _ E4) as (P1 & (P2 & P3 & P4) & (P5 & P6 & P7) & P8 & P9 & P10). rewrite P2, P3, P4, P5, P6, P7, P8, P9, P10.
    exact (conj P1 (conj (conj LB3 (conj UB3 G3)) (conj (conj (eq_trans A3 HA) (conj LA3 UA3)) (conj O3 (conj BB3 CC3))))). }
  clear E4 s3 Z3 A3 LA3 UA3 BB3 CC3 LB3 UB3 G3 O3.
  destruct D4 as ((Xx & Xy & XA & Xl & Xu) & (L4 & U4 & G4) & (A4 & LA4 & UA4) & O4 & BB4 & CC4).
  pose proof Z4 as Z4'. destruct Z4' as [_ _ V4 C4 _ _ _ _ _ _ _ _ _ _]. rewrite V4, C4.
  eapply pc_bind; [apply (obtained xOpt yOpt gB gC s4 n m); auto|]. intros [[r5 auxB] auxC] OB.
  destruct (r5 =r? SUCCESSFUL_RETURN) eqn:E5; [|let X := fresh in intros X; discriminate X]. assert (r5 = SUCCESSFUL_RETURN) as -> by (destruct r5; try discriminate E5; reflexivity). clear E5. cbn [negb].
  destruct (OB eq_refl) as (NAB & NAC & WB & WC). clear OB.
  (* facts about the wanted working set, in terms of the types *)
  assert (GB : forall i, (0 <= i < n)%Z -> zt (st_type bd2) i <> ST_EQUALITY -> fitsB (guess_at yOpt i) gB i -> agrees (zs (st_status auxB) i) (guess_at yOpt i)).
  { intros i Hi T F. destruct (WB i Hi) as (W & S). apply (agrees_B xOpt yOpt gB s4 n i V4 Hi); auto.
    - destruct yOpt; cbn [olen] in *; auto. lia.
    - unfold PropAuxP.tyB. rewrite BB4. exact T. }
  assert (GC : forall i, (0 <= i < m)%Z -> fitsC s (guess_at yOpt (n + i)) gC i -> agrees (zs (st_status auxC) i) (guess_at yOpt (n + i))).
  { intros i Hi (F1 & F2). destruct (WC i Hi) as (W & S). apply (agrees_C xOpt yOpt gC s4 n m i V4 C4 sz_n Hi Hy F1); auto.
    intros T gc EG. unfold PropAuxP.tyC in T. rewrite CC4 in T. specialize (TE3 i Hi T). destruct (F2 gc EG) as [F|F]; [exact F|]. lra. }
  assert (SB : forall i, (0 <= i < n)%Z -> settled (zs (st_status auxB) i)) by (intros i Hi; apply (WB i Hi)).
  assert (SC : forall i, (0 <= i < m)%Z -> settled (zs (st_status auxC) i)) by (intros i Hi; apply (WC i Hi)).
  clear WB WC TE3.
  (* regularisation *)
  eapply pc_bind with (P := fun '(r, s5) => exists b5, s5 = set_p_b (N := N) b5 s4 /\ bkeep (p_b s4) b5).
  { destruct (_ || _).
    - eapply pc_bind; [apply bk_regularise|]. intros [r b] K. cbn [pc]. eauto.
    - cbn [pc]. exists (p_b s4). split; [|apply bk_refl]. destruct s4; reflexivity. }
  intros [r6 s5] (b5 & -> & (Y1 & Y2 & Y3 & Y4 & Y5 & Y6) & O5).
  destruct (negb _); [let X := fresh in intros X; discriminate X|].
  set (s5 := set_p_b (N := N) b5 s4).
  assert (Z5 : sized eps zero infty n m s5).
  { destruct Z4. constructor; auto; unfold s5; cbn [p_b set_p_b]; rewrite ?Y1, ?Y2, ?Y3, ?Y4, ?Y5; auto. exact (eq_trans (f_equal st_n Y6) sz_V0). }
  assert (I5 : inv (N := N) auxB auxC (st_type bd2) (st_type cn2) (o_boundRelaxation (p_opts s)) (o_boundTolerance (p_opts s)) (o_enableRamping (p_opts s)) s5).
  { assert (EB : p_bounds s5 = bd2) by (rewrite <- BB4; exact Y6). assert (EC : p_cons s5 = cn2) by exact CC4. unfold inv, wsi. rewrite EB, EC.
    split; [split; [reflexivity|]|split; [split; [auto|]|]].
    - intros i Hi. unfold allowed. destruct (IB3 i Hi); auto.
    - intros i Hi. unfold allowed. destruct (IC3 i Hi); auto.
    - destruct O4 as (O41 & O42 & O43), O5 as (O51 & O52 & O53). change (p_opts s5) with (q_opts b5). change (p_opts s4) with (q_opts (p_b s4)) in *. repeat split; congruence. }
  eapply pc_bind with (P := fun '(r, t) => dat s5 t /\ keep s5 t).
  { pose proof (d_tq (N := N) s5 s5 (dat_refl s5)) as P1. pose proof (k_tq (N := N) s5) as P2. destruct (setupTQfactorisation (N := N) s5) as [[? ?]| |]; try exact I. cbn in *. auto. }
  intros [r7 s6] (D6 & K6). pose proof (keep_inv (N := N) _ _ _ _ _ _ _ _ _ K6 I5) as I6. clear K6.
  destruct (negb _); [let X := fresh in intros X; discriminate X|].
  eapply pc_bind with (P := fun '(r, t) => dat s5 t /\ inv (N := N) auxB auxC (st_type bd2) (st_type cn2) (o_boundRelaxation (p_opts s)) (o_boundTolerance (p_opts s)) (o_enableRamping (p_opts s)) t).
  { pose proof (d_afresh (N := N) junk s5 (Some auxB) (Some auxC) s6 D6) as P1. pose proof (i_afresh (N := N) junk auxB auxC _ _ _ _ _ s6 I6) as P2.
    destruct (p_setupAuxiliaryWorkingSet (N := N) junk (Some auxB) (Some auxC) true s6) as [[? ?]| |]; try exact I. cbn in *. auto. }
  intros [r8 s7] (D7 & I7). clear s6 D6 I6 r7.
  destruct (negb _); [let X := fresh in intros X; discriminate X|].
  eapply pc_bind with (P := fun t => dat s5 t /\ inv (N := N) auxB auxC (st_type bd2) (st_type cn2) (o_boundRelaxation (p_opts s)) (o_boundTolerance (p_opts s)) (o_enableRamping (p_opts s)) t).
  { pose proof (k_copyR (N := N) Rin xOpt yOpt gB gC s7) as P2. 
    assert (P1 : pc (p_copyR (N := N) Rin xOpt yOpt gB gC s7) (dat s5)).
    { unfold p_copyR, on_b, copyR. clear - D7. destruct gC; [exact D7|]. repeat match goal with |- pc (bind (bind _ _) _) _ => apply pc_assoc | |- pc (bind (if ?b then _ else _) _) _ => destruct b | |- pc (bind (match ?b with _ => _ end) _) _ => destruct b | |- pc (bind (Ok _) _) _ => cbn [bind] | |- pc (bind _ _) _ => apply pc_any; intro | |- pc (Ok _) _ => exact D7 end. }
    destruct (p_copyR (N := N) Rin xOpt yOpt gB gC s7) as [t| |]; try exact I. cbn in *. split; [exact P1|exact (keep_inv (N := N) _ _ _ _ _ _ _ _ _ P2 I7)]. }
  intros s8 (D8 & I8). clear s7 D7 I7 r8.
  destruct D8 as ((Q1 & Q2 & Q3 & Q4 & Q5 & _) & (Q6 & Q7 & Q8 & Q9 & Q10 & Q11) & Q12 & Q13).
  assert (Z8 : sized eps zero infty n m s8).
  { destruct Z5. constructor; auto; rewrite ?Q1, ?Q2, ?Q3, ?Q4, ?Q5, ?Q7, ?Q8, ?Q9, ?Q10, ?Q11, ?Q12, ?Q13; auto. }
  change (q_x (p_b s5)) with (q_x b5) in Q1. change (q_y (p_b s5)) with (q_y b5) in Q2. change (q_lb (p_b s5)) with (q_lb b5) in Q3. change (q_ub (p_b s5)) with (q_ub b5) in Q4. change (q_g (p_b s5)) with (q_g b5) in Q5.
  change (p_A s5) with (p_A s4) in Q6. change (p_lbA s5) with (p_lbA s4) in Q7. change (p_ubA s5) with (p_ubA s4) in Q8. change (p_Ax s5) with (p_Ax s4) in Q9. change (p_Ax_l s5) with (p_Ax_l s4) in Q10. change (p_Ax_u s5) with (p_Ax_u s4) in Q11.
  rewrite Y1, Xx in Q1. rewrite Y2, Xy in Q2. rewrite Y3, L4 in Q3. rewrite Y4, U4 in Q4. rewrite Y5, G4 in Q5. rewrite A4 in Q6. rewrite LA4 in Q7. rewrite UA4 in Q8. rewrite XA in Q9. rewrite Xl in Q10. rewrite Xu in Q11.
  clear s5 Z5 I5 Q12 Q13 s4 Z4 V4 C4 Xx Xy XA Xl Xu L4 U4 G4 A4 LA4 UA4 O4 O5 BB4 CC4 Y1 Y2 Y3 Y4 Y5 Y6 b5.
  pose proof Z8 as Z8'. destruct Z8' as [_ _ V8 C8 _ _ _ _ _ _ _ _ _ _]. rewrite V8, C8, Q3, Q4, Q5, Q7, Q8.
  assert (JJ : forall k, (0 <= k)%Z -> zlen (junk k) = k) by exact J.
  rewrite (copy_eq (N := N) n (q_g (p_b s))) by (try apply JJ; assumption). cbn [bind].
  rewrite (copy_eq (N := N) n (q_lb (p_b s))) by (try apply JJ; assumption). cbn [bind].
  rewrite (copy_eq (N := N) n (q_ub (p_b s))) by (try apply JJ; assumption). cbn [bind].
  rewrite (copy_eq (N := N) m (p_lbA s)) by (try apply JJ; assumption). cbn [bind].
  rewrite (copy_eq (N := N) m (p_ubA s)) by (try apply JJ; assumption). cbn [bind].
  (* the gradient *)
  eapply pc_bind with (P := fun s9 => exists g : arr, s9 = up_b (N := N) (set_q_g (N := N) g) s8 /\
    forall Hm, hess eps zero infty n (p_b s8) Hm -> forall i, (0 <= i < n)%Z -> zn 0 g i = yB s8 i - matvec n Hm (xB s8) i + rsum 0 m (fun j => Am j i * yB s8 (n + j))).
  { destruct (p_setupAuxiliaryQPgradient s8) as [s9| |] eqn:EG; try exact I. cbn [pc].
    assert (ST : exists g : arr, s9 = up_b (N := N) (set_q_g (N := N) g) s8).
    { assert (P : pc (p_setupAuxiliaryQPgradient (N := N) s8) (fun s9 => exists g : arr, s9 = up_b (N := N) (set_q_g (N := N) g) s8)); [|rewrite EG in P; exact P].
      unfold p_setupAuxiliaryQPgradient, on_b, setupAuxiliaryQPgradient. apply pc_assoc. apply pc_assoc. apply pc_any. intros g. cbn [bind]. apply pc_any. intros A. apply pc_any. intros g'. cbn [pc]. exists g'. reflexivity. }
    destruct ST as (g & ->). exists g. split; [reflexivity|]. intros Hm HE.
    destruct (wp_inv _ _ (grad_ok eps zero infty zero_b n m Hm Am M s8 Z8 HE Q6 AS)) as (s9 & EG' & g' & -> & _ & V).
    rewrite EG in EG'. injection EG' as EG'. subst g'. exact V. }
  intros s9 (g & E9 & Vg).
  assert (F9 : (p_Ax s9 = Ax /\ p_Ax_l s9 = Al /\ p_Ax_u s9 = Au) /\ (q_x (p_b s9) = x /\ q_y (p_b s9) = y /\ q_g (p_b s9) = g) /\ (p_bounds s9 = p_bounds s8 /\ p_cons s9 = p_cons s8) /\
    (o_boundRelaxation (p_opts s9) = o_boundRelaxation (p_opts s) /\ o_enableRamping (p_opts s9) = false) /\ forall Hm, hess eps zero infty n (p_b s9) Hm -> hess eps zero infty n (p_b s8) Hm).
  { destruct I8 as (_ & _ & OR & OT & ORA). destruct (lay_gradient n _ _ _ E9) as ((P1 & P2 & P3) & (P4 & P5 & P6) & P7 & P8 & P9). rewrite P1, P2, P3, P4, P5, P6, P8.
    exact (conj (conj Q9 (conj Q10 Q11)) (conj (conj Q1 (conj Q2 eq_refl)) (conj P7 (conj (conj OR (eq_trans ORA NR)) P9)))). }
  eapply pc_bind; [apply (limits n m s8 s9 g auxB auxC Z8 E9 NAB NAC)|].
  { destruct F9 as ((-> & -> & ->) & _). intros i Hi. apply (VA i Hi). }
  intros [r9 t] LT. destruct (r9 =r? SUCCESSFUL_RETURN) eqn:E9'; [|let X := fresh in intros X; discriminate X]. assert (r9 = SUCCESSFUL_RETURN) as -> by (destruct r9; try discriminate E9'; reflexivity). clear E9'. cbn [negb].
  destruct (LT eq_refl) as (lb & ub & lbA & ubA & Al' & Au' & Et & VB & VC). clear LT.
  destruct F9 as ((F1 & F2 & F3) & (F4 & F5 & F6) & (F7 & F8) & (F10 & F11) & F12).
  match goal with |- context [o_enableRamping (p_opts ?t)] => remember t as s10 eqn:E10 end.
  assert (G10 : (q_x (p_b s10) = x /\ q_y (p_b s10) = y /\ q_g (p_b s10) = g) /\ (q_lb (p_b s10) = lb /\ q_ub (p_b s10) = ub /\ p_lbA s10 = lbA /\ p_ubA s10 = ubA) /\ (p_Ax_l s10 = Al' /\ p_Ax_u s10 = Au') /\
    (p_bounds s10 = p_bounds s8 /\ p_cons s10 = p_cons s8) /\ o_enableRamping (p_opts s10) = false /\ forall Hm, hess eps zero infty n (p_b s10) Hm -> hess eps zero infty n (p_b s8) Hm).
  { destruct (lay_status n _ _ _ E10) as ((P1 & P2 & P3) & (P4 & P5 & P6 & P7) & (P8 & P9) & (P10 & P11) & P12 & P13). rewrite P1, P2, P3, P4, P5, P6, P7, P8, P9, P10, P11, P12. clear E10 P1 P2 P3 P4 P5 P6 P7 P8 P9 P10 P11 P12.
    destruct (lay_limits n _ _ _ _ _ _ _ _ Et) as ((P1 & P2 & P3) & P4 & P5 & (P10 & P11) & P12 & P14). rewrite P1, P2, P3, P10, P11, P12.
    exact (conj (conj F4 (conj F5 F6)) (conj P4 (conj P5 (conj (conj F7 F8) (conj F11 (fun Hm H => F12 Hm (P14 Hm (P13 Hm H)))))))). }
  clear E10 Et t. destruct G10 as ((H1 & H2 & H3) & (H4 & H5 & H6 & H7) & (H8 & H9) & (H10 & H11) & H12 & H13).
  rewrite H12. cbn [bind pc]. intros _.
  destruct I8 as ((TB8 & WB8) & (TC8 & WC8) & _). rewrite F10 in VB, VC. rewrite F1 in VC.
  unfold PropAuxP.tyB, PropAuxP.wsB, PropAuxP.xB, PropAuxP.lB, PropAuxP.uB in VB. rewrite F7, F4 in VB. unfold PropAuxP.tyC, PropAuxP.wsC, PropAuxP.lC, PropAuxP.uC in VC. rewrite F8 in VC.
  assert (AX : forall i, (0 <= i < m)%Z -> zn 0 Ax i = act n Am s10 i).
  { intros i Hi. rewrite (proj1 (VA i Hi)). unfold PropAuxP.act. apply rsum_ext. intros j Hj. unfold PropAuxP.xB. now rewrite H1. }
  assert (YB : forall i, (0 <= i < n + m)%Z -> yB s10 i = guess_at yOpt i) by (intros i Hi; unfold PropAuxP.yB; rewrite H2; apply (Vy i Hi)).
  pose proof (fun i Hi y => lim_sound _ _ _ _ _ _ _ _ _ y Rlx (SB i Hi) (WB8 i (proj1 Hi)) (VB i Hi)) as LB.
  pose proof (fun i Hi y => lim_sound _ _ _ _ _ _ _ _ _ y Rlx (SC i Hi) (WC8 i (proj1 Hi)) (proj1 (VC i Hi))) as LC.
  split; [reflexivity|]. split; [|split; [exact YB|split; [|split; [|split]]]].
  - intros i Hi. unfold PropAuxP.xB. rewrite H1. exact (Vx i Hi).
  - intros i Hi. unfold PropAuxP.xB, PropAuxP.lB, PropAuxP.uB, PropAuxP.wsB. rewrite H1, H4, H5, H10. exact (proj1 (LB i Hi 0)).
  - intros i Hi. rewrite <- AX by exact Hi. unfold PropAuxP.lC, PropAuxP.uC, PropAuxP.wsC. rewrite H6, H7, H11. exact (proj1 (LC i Hi 0)).
  - intros i Hi. destruct (VC i Hi) as (_ & S1 & S2). rewrite (AX i Hi) in S1, S2. rewrite H6, H7, H8, H9. exact (conj S1 S2).
  - intros Hm HE. pose proof (Vg Hm (H13 Hm HE)) as V. unfold PropAuxP.xB, PropAuxP.yB in V |- *. rewrite Q1, Q2 in V. rewrite H1, H2, H3. split; [exact V|]. intros FTB FTC.
    apply optimal_iff. rewrite H1, H2, H3, H4, H5, H6, H7. split; [|split; [|exact V]].
    + intros i Hi. apply (LB i Hi). unfold PropAuxP.tyB in FTB. rewrite H10 in FTB.
      destruct (FTB i Hi) as [T|F]; [left; exact T|]. assert (DT : {zt (st_type (p_bounds s8)) i = ST_EQUALITY} + {zt (st_type (p_bounds s8)) i <> ST_EQUALITY}) by (destruct (zt (st_type (p_bounds s8)) i); (left; reflexivity) || (right; discriminate)).
      destruct DT as [T|T]; [left; exact T|]. right. rewrite Vy by lia. apply (GB i Hi); [|exact F]. rewrite <- TB8. exact T.
    + intros i Hi. change (Axv eps zero infty n Am s10 i) with (act n Am s10 i). rewrite <- AX by exact Hi. apply (LC i Hi).
      unfold PropAuxP.tyC in FTC. rewrite H11 in FTC. destruct (FTC i Hi) as [T|F]; [left; exact T|]. right. rewrite Vy by lia. exact (GC i Hi F).
Qed.
End AuxQ.

(** ** Example
    min x^2/2 + 3x subject to -1 <= x <= 1 and 0 <= x <= 2, guessed x = 0 with
    multipliers 0 and 4 and no guessed working set.  The hypotheses hold over the
    reals; the same data over the rationals is prepared successfully with the
    constraint at its lower limit. *)
Definition aqo {N : Num} (eq : bool) : options N := set_o_enableEqualities eq (set_o_enableRamping false optDefault).
Definition aqs (N : Num) (lb ub lbA ubA g A : list N) (n m : Z) : qp N :=
  let s := p_new (fun n => repeat n0 (Z.to_nat n)) n m HST_IDENTITY (aqo true) in
  let b := set_q_lb lb (set_q_ub ub (set_q_g g (p_b s))) in
  set_p_A (Some (ADense (mkDense m n n A))) (set_p_lbA lbA (set_p_ubA ubA (set_p_b b s))).
Definition aqr : qp axN := aqs axN [-1] [1] [0] [2] [3] [1] 1 1.
Definition aqq : qp QNum := aqs QNum [(-1)%Q] [1%Q] [0%Q] [2%Q] [3%Q] [1%Q] 1 1.
Definition aq_run := p_prepareInitial (N := QNum) ce_junk (Some [0%Q]) (Some [0%Q; 4%Q]) None None None aqq.
Example C36_QProblem_ex :
  (0 <= 1/1000 /\ 0 <= 1/1000000 < 1) /\ sized (1/1000) (1/1000000) 1000 1 1 aqr /\ astored (1/1000) (1/1000000) 1000 1 1 (ADense (N := axN) (mkDense 1 1 1 [1])) (dmat (mkDense 1 1 1 [1])) /\
  p_A aqr = Some (ADense (N := axN) (mkDense 1 1 1 [1])) /\ olen (N := axN) 1 (Some [0]) /\ olen (N := axN) (1 + 1) (Some [0; 4]) /\
  (forall i, (0 <= i)%Z -> wsB (1/1000) (1/1000000) 1000 aqr i = ST_UNDEFINED) /\ (forall i, (0 <= i)%Z -> wsC (1/1000) (1/1000000) 1000 aqr i = ST_UNDEFINED) /\
  0 <= o_boundRelaxation (p_opts aqr) /\ o_enableRamping (p_opts aqr) = false /\
  (forall i, (0 <= i < 1)%Z -> fitsB (1/1000) (guess_at (Some [0; 4]) i) None i /\ fitsC (1/1000) (1/1000000) 1000 aqr (guess_at (Some [0; 4]) (1 + i)) None i) /\
  match aq_run with Ok (r, _, s') => r = SUCCESSFUL_RETURN /\ st_status (p_cons s') = [ST_LOWER] /\ st_status (p_bounds s') = [ST_INACTIVE] | _ => False end.
Proof.
  assert (I0 : forall i, (0 <= i < 1)%Z -> i = 0%Z) by lia.
  split; [lra|]. split; [constructor; first [reflexivity|lia]|]. split; [split; [repeat split; cbn; unfold zlen; cbn; lia|repeat split]|]. split; [reflexivity|].
  split; [change (1 <= 1)%Z; lia|]. split; [change (2 <= 2)%Z; lia|]. split; [intros i Hi|split; [intros i Hi|split; [|split; [reflexivity|split]]]].
  - unfold wsB. change (st_status (p_bounds aqr)) with [ST_UNDEFINED]. destruct (Z.eq_dec i 0) as [->|]; [reflexivity|]. unfold zn. apply nth_overflow. cbn. lia.
  - unfold wsC. change (st_status (p_cons aqr)) with [ST_UNDEFINED]. destruct (Z.eq_dec i 0) as [->|]; [reflexivity|]. unfold zn. apply nth_overflow. cbn. lia.
  - change (0 <= Rlit 1 4). change (Rlit 1 4) with (IZR (1 * 10 ^ 4)). apply IZR_le. lia.
  - intros i Hi. apply I0 in Hi as ->. split; [left; reflexivity|]. split; [right; change (1 / 1000 < Rabs 4); rewrite Rabs_pos_eq; lra|discriminate].
  - vm_compute. auto.
Qed.

(** ** C36: guessing an equality at its upper limit
    min x^2/2 - 2x subject to x = 0 stated twice.  The guess x = 0 with multipliers
    (0; -1, -1) is optimal, and both constraints are guessed at their upper limits,
    as the sign of the multipliers demands.  The second, linearly dependent equality
    is turned into an inequality that counts as guessed at its lower limit: its upper
    limit is moved away although its multiplier stays negative. *)
Definition aqd : qp QNum := aqs QNum [(-5)%Q] [5%Q] [0%Q; 0%Q] [0%Q; 0%Q] [(-2)%Q] [1%Q; 1%Q] 1 2.
Definition aqd_gC : subjectTo := match st_setup KConstraints (st_new 2) 0 ST_UPPER with
  | Ok (_, b) => match st_setup KConstraints b 1 ST_UPPER with Ok (_, b) => b | _ => st_new 2 end | _ => st_new 2 end.
Definition aqd_gB : subjectTo := match st_setup KBounds (st_new 1) 0 ST_INACTIVE with Ok (_, b) => b | _ => st_new 1 end.
Definition aqd_run := p_prepareInitial (N := QNum) ce_junk (Some [0%Q]) (Some [0%Q; (-1)%Q; (-1)%Q]) (Some aqd_gB) (Some aqd_gC) None aqd.
Theorem C36_equality_refuted : st_status aqd_gC = [ST_UPPER; ST_UPPER] /\ exists t s', aqd_run = Ok (SUCCESSFUL_RETURN, t, s') /\
  zs (st_status (p_cons s')) 1 = ST_INACTIVE /\ zt (st_type (p_cons s')) 1 = ST_BOUNDED /\
  (zn 0%Q (q_y (p_b s')) 2 < 0)%Q /\ (zn 0%Q (p_Ax s') 1 < zn 0%Q (p_ubA s') 1)%Q.
Proof.
  split; [reflexivity|]. assert (T : match aqd_run with
    | Ok (SUCCESSFUL_RETURN, _, s') => zs (st_status (p_cons s')) 1 = ST_INACTIVE /\ zt (st_type (p_cons s')) 1 = ST_BOUNDED /\
        (zn 0%Q (q_y (p_b s')) 2 < 0)%Q /\ (zn 0%Q (p_Ax s') 1 < zn 0%Q (p_ubA s') 1)%Q
    | _ => False end) by (vm_compute; auto 8).
  destruct aqd_run as [((r & t) & s')| |]; try contradiction. destruct r; try contradiction. eauto 8.
Qed.
