(** Auxiliary problems (C36), drift correction (C41) and ramping (C42): the
    functions that replace the data of the current problem so that the current
    iterate is optimal for it. *)
From Coq Require Import QArith SpecFloat.
From Verif Require Kkt.
From Verif Require Import Base Types Num Options Indexlist IndexlistProofs Loops RSum LinSpec SafeLib SubjectTo SubjectToProofs SubjectToProofs2
  Flipper PropFlipper Matrices MatLib MatSafe LinAlg PropLinAlg QProblemB QPBSafe QPBSafe2 QPBSafe3 QPBSafe6 QPBEx QPBX1 QPBX2 QPBX3 QPBX4 QPBX5 QPBX6 PropChol.
Local Open Scope R_scope.

Section PropAux.
Variables eps zero infty : R.
Notation N := (RNumT eps zero infty).
Notation arr := (list R).
Notation xv := (xv eps zero infty). Notation yv := (yv eps zero infty). Notation gv := (gv eps zero infty).
Notation lv := (lv eps zero infty). Notation uv := (uv eps zero infty). Notation sv := (sv eps zero infty). Notation tv := (tv eps zero infty).

(** ** Specification *)
(** the problem an object stores: its Hessian, gradient and bounds *)
Definition boxqp (n : Z) (Hm : Z -> Z -> R) (s : qpb N) : Kkt.qp :=
  Kkt.mkQp n 0 Hm (gv s) (fun _ _ => 0) (fun i => Some (lv s i)) (fun i => Some (uv s i)) (fun _ => None) (fun _ => None).
(** the pair (x,y) of the object satisfies the KKT conditions of that problem *)
Definition optimal (n : Z) (Hm : Z -> Z -> R) (s : qpb N) : Prop := Kkt.kkt (boxqp n Hm s) (xv s) (yv s) (fun _ => 0).
(** and x lies on the bounds in the working set, with zero multipliers for the others *)
Definition on_working_set (n : Z) (s : qpb N) : Prop := forall i, (0 <= i < n)%Z ->
  (sv s i = ST_LOWER -> xv s i = lv s i) /\ (sv s i = ST_UPPER -> xv s i = uv s i) /\ (sv s i = ST_INACTIVE -> yv s i = 0).

Definition settled (v : SubjectToStatus) : Prop := v = ST_INACTIVE \/ v = ST_LOWER \/ v = ST_UPPER.
Definition consistent (v : SubjectToStatus) (x l u y : R) : Prop :=
  l <= x <= u /\ match v with ST_INACTIVE => y = 0 | ST_LOWER => x = l /\ 0 <= y | ST_UPPER => x = u /\ y <= 0 | _ => False end.

(** ** Proofs *)
Lemma optimal_intro n Hm s : stationary eps zero infty n s Hm ->
  (forall i, (0 <= i < n)%Z -> consistent (sv s i) (xv s i) (lv s i) (uv s i) (yv s i) \/ (lv s i = xv s i /\ uv s i = xv s i)) -> optimal n Hm s.
Proof.
  intros ST C. split; [|split; [|split]].
  - split; intros i Hi; [|cbn in Hi; lia]. cbn. cbn in Hi. destruct (C i Hi) as [(B & _)|(E1 & E2)]; split; intros b E; injection E as <-; lra.
  - intros i Hi. cbn in Hi. unfold Kkt.stationarity. cbn [Kkt.q_nC Kkt.q_g boxqp]. rewrite (rsum_empty 0 0) by lia.
    specialize (ST i Hi). change (Kkt.Hx (boxqp n Hm s) (xv s) i) with (matvec n Hm (xv s) i). lra.
  - intros i Hi. cbn in Hi |- *. unfold Kkt.complementary. destruct (C i Hi) as [(B & M)|(E1 & E2)]; [|rewrite E1, E2; auto].
    destruct (sv s i); try contradiction.
    + destruct M as (-> & M). split; [auto|lra].
    + rewrite M. split; lra.
    + destruct M as (-> & M). split; [lra|auto].
  - intros i Hi. cbn in Hi. lia.
Qed.

(** *** C41 *)
(** what drift correction can repair: regular bounds always, equalities unless
    they are inactive with a multiplier; other types must be right already *)
Definition correctable (t : SubjectToType) (v : SubjectToStatus) (x l u y : R) : Prop :=
  match t with
  | ST_BOUNDED => settled v
  | ST_EQUALITY => v = ST_INACTIVE -> y = 0
  | _ => consistent v x l u y
  end.

Lemma drift_consistent t v x l u y l' u' y' : correctable t v x l u y -> drift t v x l u y l' u' y' ->
  (consistent v x l' u' y' \/ (l' = x /\ u' = x)) /\ (v = ST_LOWER -> x = l') /\ (v = ST_UPPER -> x = u') /\ (v = ST_INACTIVE -> y' = 0).
Proof.
  unfold correctable, drift. intros C D.
  assert (Same : consistent v x l u y -> l' = l /\ u' = u /\ y' = y ->
    (consistent v x l' u' y' \/ (l' = x /\ u' = x)) /\ (v = ST_LOWER -> x = l') /\ (v = ST_UPPER -> x = u') /\ (v = ST_INACTIVE -> y' = 0)).
  { intros Co (-> & -> & ->). split; [auto|]. destruct Co as (_ & Co). destruct v; try contradiction; repeat split; try discriminate; tauto. }
  destruct t; try (now apply Same).
  - unfold consistent. pose proof (Rmax_l u x). pose proof (Rmax_r u x). pose proof (Rmin_l l x). pose proof (Rmin_r l x).
    pose proof (Rmax_r y 0). pose proof (Rmin_r y 0). destruct C as [-> | [-> | ->]]; destruct D as (-> & -> & ->); (split; [left; lra|]); repeat split; try discriminate; auto; lra.
  - destruct D as (-> & -> & ->). auto.
Qed.

(** drift correction touches only bounds, multipliers and gradient, and makes
    (x,y) optimal for the problem it leaves *)
Theorem C41_drift_correction n (s : qpb N) l0 l1 Hm : qwf n s l0 l1 -> hess eps zero infty n s Hm ->
  (forall i, (0 <= i < n)%Z -> correctable (tv s i) (sv s i) (xv s i) (lv s i) (uv s i) (yv s i)) ->
  exists s', performDriftCorrection (N := N) s = Ok s' /\ optimal n Hm s' /\ on_working_set n s' /\
    (exists g y lb ub, s' = set_q_g (N := N) g (set_q_y (N := N) y (set_q_ub (N := N) ub (set_q_lb (N := N) lb s)))).
Proof.
  intros W HE C. destruct (wp_inv _ _ (drift_exact eps zero infty n s l0 l1 Hm W HE)) as (s' & E & (g & lb & ub & y & -> & Lg & L & V) & ST).
  assert (A : forall i, (0 <= i < n)%Z -> _) by exact (fun i Hi => drift_consistent _ _ _ _ _ _ _ _ _ (C i Hi) (V i Hi)).
  eexists. split; [exact E|]. split; [|split].
  - apply optimal_intro; [exact ST|]. intros i Hi. apply (A i Hi).
  - intros i Hi. apply (A i Hi).
  - eauto.
Qed.

(** *** C42 *)
(** the same for ramping *)
Definition rampable (t : SubjectToType) (v : SubjectToStatus) (x l u y : R) : Prop :=
  match t with
  | ST_BOUNDED | ST_UNKNOWN => settled v
  | ST_EQUALITY => v = ST_INACTIVE -> y = 0
  | ST_UNBOUNDED | ST_DISABLED => consistent v x l u y
  end.
Lemma ramp_consistent rv t v x l u y l' u' y' : 0 <= rv -> rampable t v x l u y -> ramp rv t v x l u y l' u' y' ->
  (consistent v x l' u' y' \/ (l' = x /\ u' = x)) /\ (v = ST_LOWER -> x = l') /\ (v = ST_UPPER -> x = u') /\ (v = ST_INACTIVE -> y' = 0).
Proof.
  unfold rampable, ramp. intros P C D.
  assert (Same : consistent v x l u y -> l' = l /\ u' = u /\ y' = y ->
    (consistent v x l' u' y' \/ (l' = x /\ u' = x)) /\ (v = ST_LOWER -> x = l') /\ (v = ST_UPPER -> x = u') /\ (v = ST_INACTIVE -> y' = 0)).
  { intros Co (-> & -> & ->). split; [auto|]. destruct Co as (_ & Co). destruct v; try contradiction; repeat split; try discriminate; tauto. }
  destruct t; try (now apply Same).
  2:{ destruct D as (-> & -> & ->). auto. }
  all: unfold consistent; destruct C as [-> | [-> | ->]]; destruct D as (-> & -> & ->); (split; [left; lra|]); repeat split; try discriminate; auto; lra.
Qed.

(** with at least two variables and nonnegative ramps, ramping leaves a problem
    for which (x,y) is optimal, and its bounds and multipliers differ from x and
    zero by at most the larger ramp *)
Theorem C42_ramping n (s : qpb N) l0 l1 Hm : qwf n s l0 l1 -> hess eps zero infty n s Hm -> (2 <= n)%Z ->
  (0 <= q_rampOffset s)%Z -> 0 <= q_ramp0 s -> 0 <= q_ramp1 s ->
  (forall i, (0 <= i < n)%Z -> rampable (tv s i) (sv s i) (xv s i) (lv s i) (uv s i) (yv s i)) ->
  exists s', performRamping (N := N) s = Ok s' /\ optimal n Hm s' /\ on_working_set n s' /\
    (exists g y lb ub, s' = set_q_rampOffset (N := N) (q_rampOffset s + 1) (set_q_g (N := N) g (set_q_y (N := N) y (set_q_ub (N := N) ub (set_q_lb (N := N) lb s))))) /\
    (forall i, (0 <= i < n)%Z -> (tv s i = ST_BOUNDED \/ tv s i = ST_UNKNOWN) ->
       Rabs (lv s' i - xv s i) <= Rmax (q_ramp0 s) (q_ramp1 s) /\ Rabs (uv s' i - xv s i) <= Rmax (q_ramp0 s) (q_ramp1 s) /\ Rabs (yv s' i) <= Rmax (q_ramp0 s) (q_ramp1 s)).
Proof.
  intros W HE Hn Ho P0 P1 C. destruct (wp_inv _ _ (ramping_exact eps zero infty n s l0 l1 Hm W HE)) as (s' & E & s1 & -> & (g & lb & ub & y & -> & Lg & L & V) & ST).
  assert (RV : forall i, (0 <= i < n)%Z -> 0 <= rampv eps zero infty s n i <= Rmax (q_ramp0 s) (q_ramp1 s)).
  { intros i Hi. split; [apply rampv_nonneg; auto; lia|now apply rampv_le]. }
  assert (A : forall i, (0 <= i < n)%Z -> _) by exact (fun i Hi => ramp_consistent _ _ _ _ _ _ _ _ _ _ (proj1 (RV i Hi)) (C i Hi) (V i Hi)).
  eexists. split; [exact E|]. split; [|split; [|split]].
  - apply optimal_intro; [exact ST|]. intros i Hi. apply (A i Hi).
  - intros i Hi. apply (A i Hi).
  - exists g, y, lb, ub. reflexivity.
  - intros i Hi T. specialize (V i Hi). specialize (RV i Hi). specialize (C i Hi). unfold lv, uv, yv. cbn.
    assert (D : ramp (rampv eps zero infty s n i) ST_BOUNDED (sv s i) (xv s i) (lv s i) (uv s i) (yv s i) (zn 0 lb i) (zn 0 ub i) (zn 0 y i)) by (destruct T as [T|T]; rewrite T in V; exact V).
    assert (S : settled (sv s i)) by (destruct T as [T|T]; rewrite T in C; exact C).
    unfold ramp in D. destruct S as [S|[S|S]]; rewrite S in D; destruct D as (-> & -> & ->).
    all: split; [|split]; unfold Rabs; destruct (Rcase_abs _); lra.
Qed.

(** *** C36 *)
(** Guesses that determine an optimal pair.  [y] is the multiplier the guess
    gives variable [i] (zero if there is no guess): a guessed working set must fit
    its sign, and without a guessed working set it must be zero or distinguishable
    from zero. *)
Definition fitting (yOpt : option arr) (guess : option subjectTo) (i : Z) : Prop :=
  let y := guess_at yOpt i in
  match guess with
  | Some gb => match zs (st_status gb) i with ST_INACTIVE => y = 0 | ST_LOWER => 0 <= y | ST_UPPER => y <= 0 | _ => False end
  | None => y = 0 \/ eps < Rabs y
  end.

Lemma settled_active v : good_status v -> v <> ST_UNDEFINED -> settled v.
Proof. unfold good_status, settled. destruct v; cbn; intros [H|[H|H]] D; try discriminate; try contradiction; auto. Qed.

Lemma auxStatus_fitting n (s5 : qpb N) m0 m1 (xOpt yOpt : option arr) guess i v : qwf n s5 m0 m1 -> 0 <= eps -> (0 <= i < n)%Z ->
  olen (N := N) n yOpt -> (forall gb, guess = Some gb -> gwf gb) ->
  auxStatus (N := N) xOpt yOpt guess s5 i = Ok v -> v = ST_INACTIVE \/ is_active v = true -> tv s5 i <> ST_EQUALITY -> fitting yOpt guess i ->
  match v with ST_INACTIVE => guess_at yOpt i = 0 | ST_LOWER => 0 <= guess_at yOpt i | ST_UPPER => guess_at yOpt i <= 0 | _ => True end.
Proof.
  intros W He Hi Ly HG E D NE F. unfold auxStatus in E. rewrite (wf_typ _ _ _ n s5 m0 m1 i W Hi) in E. cbn [bind] in E.
  assert (NE' : is_stt (tv s5 i) ST_EQUALITY = false) by (destruct (tv s5 i); try reflexivity; contradiction). rewrite NE' in E.
  unfold fitting in F. destruct guess as [gb|].
  { specialize (HG gb eq_refl). destruct (wp_inv _ _ (gwf_status gb i HG)) as (v' & E' & _ & Ev & Hv). rewrite E' in E. injection E as ->.
    assert (v <> ST_UNDEFINED) by (intros ->; destruct D as [D|D]; discriminate D). rewrite <- (Ev (Hv H)) in F. destruct v; auto. }
  destruct yOpt as [y|].
  - cbn [guess_at] in *. cbn in Ly. rewrite (rd_ok 0) in E by (rcar; lia). cbn [bind] in E. revert E. rnum.
    destruct (Rltb_spec eps (zn 0 y i)) as [H1|H1]; [intros E; injection E as <-; lra|].
    destruct (Rltb_spec (zn 0 y i) (- eps)) as [H2|H2]; [intros E; injection E as <-; lra|]. intros E. injection E as <-.
    destruct F as [F|F]; [exact F|]. unfold Rabs in F. destruct (Rcase_abs _); lra.
  - cbn [guess_at]. destruct v; auto; lra.
Qed.

(** what auxiliary bounds mean *)
Lemma auxb_bounds rlx t v x l u l' u' : 0 <= rlx -> settled v -> auxb true rlx t v x l u l' u' ->
  l' <= x <= u' /\ (v = ST_LOWER -> x = l') /\ (v = ST_UPPER -> x = u') /\ (t = ST_EQUALITY -> l' = x /\ u' = x).
Proof.
  unfold auxb. intros P S D. destruct S as [-> | [-> | ->]]; destruct (is_stt t ST_EQUALITY) eqn:Et; destruct D as (D1 & D2); subst.
  all: assert (TE : t = ST_EQUALITY -> is_stt t ST_EQUALITY = true) by (intros ->; reflexivity).
  all: (split; [lra|]); (split; [discriminate || auto|]); (split; [discriminate || auto|]); intros T; specialize (TE T); auto; congruence.
Qed.

(** For every guess: after successful preparation the object holds the guess
    (zero where none is given), x is feasible for the auxiliary bounds and lies on
    those in the working set, and (x,y) is stationary.  It satisfies all optimality
    conditions when the guess is [fitting], in particular when no multipliers are
    guessed. *)
Theorem C36_auxiliary (junk : Z -> arr) n (s : qpb N) (xOpt yOpt : option arr) guess (Rin : option arr) : junk_ok (N := N) junk -> xwf (N := N) n s ->
  olen (N := N) n xOpt -> olen (N := N) n yOpt -> olen (N := N) (n * n) Rin -> (forall gb, guess = Some gb -> gwf gb) ->
  0 <= eps -> 0 <= o_boundRelaxation (q_opts s) ->
  exists r d s', prepareInitial (N := N) junk xOpt yOpt guess Rin s = Ok (r, d, s') /\ (r = SUCCESSFUL_RETURN ->
    d = (q_g s, q_lb s, q_ub s) /\
    forall Hm, hess eps zero infty n s' Hm ->
      (forall i, (0 <= i < n)%Z -> xv s' i = guess_at xOpt i /\ yv s' i = guess_at yOpt i) /\
      stationary eps zero infty n s' Hm /\
      (forall i, (0 <= i < n)%Z -> lv s' i <= xv s' i <= uv s' i /\ (sv s' i = ST_LOWER -> xv s' i = lv s' i) /\ (sv s' i = ST_UPPER -> xv s' i = uv s' i)) /\
      ((forall i, (0 <= i < n)%Z -> tv s' i = ST_EQUALITY \/ fitting yOpt guess i) -> optimal n Hm s')).
Proof.
  intros J W Hx Hy HR HG He Hr. destruct (wp_inv _ _ (prepareInitial_exact eps zero infty junk J n s xOpt yOpt guess Rin W Hx Hy HR HG)) as (((r, ((g0, lb0), ub0)), s') & E & P).
  exists r, (g0, lb0, ub0), s'. split; [exact E|]. intros Er. destruct (P Er) as ((s5 & l0 & l1 & PR) & _ & -> & -> & ->). split; [reflexivity|]. intros Hm HE.
  destruct PR. assert (SE : forall i, (0 <= i < n)%Z -> settled (sv s' i)).
  { intros i Hi. apply settled_active; [destruct (pr_def i Hi) as [-> | X]; unfold good_status; auto|]. intros U. destruct (pr_def i Hi) as [X|X]; rewrite U in X; discriminate X. }
  assert (B : forall i, (0 <= i < n)%Z -> _) by exact (fun i Hi => auxb_bounds _ _ _ _ _ _ _ _ Hr (SE i Hi) (pr_bounds i Hi)).
  split; [auto|]. split; [auto|]. split; [intros i Hi; specialize (B i Hi); tauto|]. intros F. apply optimal_intro; [auto|]. intros i Hi.
  destruct (B i Hi) as (B1 & B2 & B3 & B4). destruct pr_wf5 as (m0 & m1 & W5).
  assert (DE : {tv s' i = ST_EQUALITY} + {tv s' i <> ST_EQUALITY}) by (destruct (tv s' i); (left; reflexivity) || (right; discriminate)).
  destruct DE as [T|T]; [right; auto|]. left. destruct (F i Hi) as [F'|F']; [contradiction|].
  pose proof (auxStatus_fitting n s5 m0 m1 xOpt yOpt guess i (sv s' i) W5 He Hi Hy HG (pr_ws i Hi) (pr_def i Hi)) as X. rewrite pr_type in X. specialize (X T F').
  rewrite <- (pr_y i Hi) in X. split; [exact B1|]. destruct (SE i Hi) as [S|[S|S]]; rewrite S in *; auto.
Qed.
End PropAux.

(** ** Counterexamples *)
(** *** C36: an inconsistent guess
    min 1/2 x^2 without bounds, guessed x = 0, y = 5 and an empty working set: the
    preparation succeeds, x lies strictly between the auxiliary bounds, and its
    multiplier is not zero. *)
Definition ce_junk (k : Z) : list QNum := repeat (7#3)%Q (Z.to_nat k).
Lemma ce_junk_ok : junk_ok (N := QNum) ce_junk.
Proof. intros k Hk. unfold ce_junk. rewrite zlen_repeat. lia. Qed.
Definition ce_guess : subjectTo := match st_setup KBounds (st_new 1) 0 ST_INACTIVE with Ok (_, b) => b | _ => st_new 1 end.
Definition ce_data : qpb QNum :=
  set_q_ub (N := QNum) [nINFTY] (set_q_lb (N := QNum) [-' nINFTY] (set_q_g (N := QNum) [0%Q]
    (qb_setH (HArr (N := QNum) (Some [1%Q])) (qb_new ce_junk 1 HST_UNKNOWN optDefault)))).
Definition ce_guess_run := prepareInitial (N := QNum) ce_junk (Some [0%Q]) (Some [5%Q]) (Some ce_guess) None ce_data.
Theorem C36_refuted : exists t s', ce_guess_run = Ok (SUCCESSFUL_RETURN, t, s') /\
  st_status (q_bounds s') = [ST_INACTIVE] /\ q_x s' = [0%Q] /\ q_y s' = [5%Q] /\
  (zn 0%Q (q_lb s') 0 < 0)%Q /\ (0 < zn 0%Q (q_ub s') 0)%Q.
Proof.
  assert (T : match ce_guess_run with
    | Ok (SUCCESSFUL_RETURN, _, s') => st_status (q_bounds s') = [ST_INACTIVE] /\ q_x s' = [0%Q] /\ q_y s' = [5%Q] /\
        (zn 0%Q (q_lb s') 0 < 0)%Q /\ (0 < zn 0%Q (q_ub s') 0)%Q
    | _ => False end) by (vm_compute; auto 8).
  destruct ce_guess_run as [((r & t) & s')| |]; try contradiction. destruct r; try contradiction. eauto.
Qed.

(** a multiplier within EPS of zero and no guessed working set: the bound is left
    out of the working set although its multiplier is not zero *)
Definition ce_small : Q := (1 # 10000000000000000)%Q.
Definition ce_small_run := prepareInitial (N := QNum) ce_junk None (Some [ce_small]) None None ce_data.
Theorem C36_small_multiplier_refuted : exists t s', ce_small_run = Ok (SUCCESSFUL_RETURN, t, s') /\
  st_status (q_bounds s') = [ST_INACTIVE] /\ q_x s' = [0%Q] /\ q_y s' = [ce_small] /\
  (zn 0%Q (q_lb s') 0 < 0)%Q /\ (0 < zn 0%Q (q_ub s') 0)%Q.
Proof.
  assert (T : match ce_small_run with
    | Ok (SUCCESSFUL_RETURN, _, s') => st_status (q_bounds s') = [ST_INACTIVE] /\ q_x s' = [0%Q] /\ q_y s' = [ce_small] /\
        (zn 0%Q (q_lb s') 0 < 0)%Q /\ (0 < zn 0%Q (q_ub s') 0)%Q
    | _ => False end) by (vm_compute; auto 8).
  destruct ce_small_run as [((r & t) & s')| |]; try contradiction. destruct r; try contradiction. eauto.
Qed.

(** *** C41: types other than BOUNDED and EQUALITY are not corrected
    variable 1 is in the working set at its lower bound 0, but x1 = 1 *)
Definition ce_drift : qpb QNum :=
  set_q_x (N := QNum) [0%Q; 1%Q] (set_q_bounds (N := QNum) (st_set_type ex_st [ST_BOUNDED; ST_UNBOUNDED]) (ex_qp (N := QNum) optDefault)).
Lemma ce_drift_wf : qwf 2 ce_drift [0%Z] [1%Z].
Proof.
  pose proof (ex_wf (N := QNum) optDefault) as []. constructor; auto.
  destruct w_st. constructor; auto.
Qed.
Definition ce_drift_run := performDriftCorrection (N := QNum) ce_drift.
Theorem C41_refuted : exists s', ce_drift_run = Ok s' /\
  zs (st_status (q_bounds s')) 1 = ST_LOWER /\ zn 0%Q (q_lb s') 1 = 0%Q /\ zn 0%Q (q_x s') 1 = 1%Q.
Proof.
  assert (T : match ce_drift_run with
    | Ok s' => zs (st_status (q_bounds s')) 1 = ST_LOWER /\ zn 0%Q (q_lb s') 1 = 0%Q /\ zn 0%Q (q_x s') 1 = 1%Q
    | _ => False end) by (vm_compute; auto).
  destruct ce_drift_run as [s'| |]; try contradiction. eauto.
Qed.

(** *** C42: one variable
    performRamping divides 0 by nV-1 = 0, and the bounds become NaN *)
Definition ce_ramp : qpb FNum :=
  set_q_bounds (N := FNum) (match st_setup KBounds (st_set_type (st_new 1) [ST_BOUNDED]) 0 ST_INACTIVE with Ok (_, b) => b | _ => st_empty end)
    (mkQ (N := FNum) None false [n0] [nm1] [n1] st_empty [n0] true [n0] [n0]
      n0 QPS_SOLVED false false HST_IDENTITY n0 0 [n0] (o_initialRamping optDefault) (o_finalRamping optDefault) 0 optDefault (fl_new 1 0) 0 0).
Definition ce_ramp_run := performRamping (N := FNum) ce_ramp.
Theorem C42_refuted : exists s', ce_ramp_run = Ok s' /\ q_lb s' = [SpecFloat.S754_nan] /\ q_ub s' = [SpecFloat.S754_nan].
Proof.
  assert (T : match ce_ramp_run with Ok s' => q_lb s' = [SpecFloat.S754_nan] /\ q_ub s' = [SpecFloat.S754_nan] | _ => False end)
    by (vm_compute; auto).
  destruct ce_ramp_run as [s'| |]; try contradiction. eauto.
Qed.

(** ** The hypotheses can be met *)
Lemma ex_hess : hess (1/1000) (1/1000000) 1000 2 ex_s ex_Hm.
Proof.
  exists (SDense (N := ex_N) ex_H). split; [reflexivity|]. apply dense_mat_ok; try lra; try lia; try reflexivity. repeat split; cbn; unfold zlen; cbn; lia.
Qed.
Lemma ex_s_wf : qwf 2 ex_s [0%Z] [1%Z].
Proof. pose proof (ex_wf (N := ex_N) optDefault) as []. constructor; auto. Qed.
Lemma two i : (0 <= i < 2)%Z -> i = 0%Z \/ i = 1%Z.
Proof. lia. Qed.
Example C41_ex : exists s', performDriftCorrection (N := ex_N) ex_s = Ok s' /\ optimal (1/1000) (1/1000000) 1000 2 ex_Hm s'.
Proof.
  destruct (C41_drift_correction (1/1000) (1/1000000) 1000 2 ex_s [0%Z] [1%Z] ex_Hm ex_s_wf ex_hess) as (s' & E & O & _); [|eauto].
  intros i Hi. destruct (two i Hi) as [-> | ->]; vm_compute; auto.
Qed.
Example C42_ex : exists s', performRamping (N := ex_N) ex_s = Ok s' /\ optimal (1/1000) (1/1000000) 1000 2 ex_Hm s'.
Proof.
  destruct (C42_ramping (1/1000) (1/1000000) 1000 2 ex_s [0%Z] [1%Z] ex_Hm ex_s_wf ex_hess) as (s' & E & O & _); [lia|cbn; lia| | | |eauto].
  - change (0 <= 5 / 10). lra.
  - change (0 <= 1). lra.
  - intros i Hi. destruct (two i Hi) as [-> | ->]; vm_compute; auto.
Qed.
Definition ex_junk (k : Z) : list R := repeat 0 (Z.to_nat k).
Definition ex_data : qpb ex_N := set_q_ub (N := ex_N) [1; 1] (set_q_lb (N := ex_N) [-1; 0] (set_q_g (N := ex_N) [0; 1]
  (qb_setH (HArr (N := ex_N) (Some [4; 1; 1; 2])) (qb_new (N := ex_N) ex_junk 2 HST_UNKNOWN optDefault)))).
Example C36_ex : junk_ok (N := ex_N) ex_junk /\ xwf (N := ex_N) 2 ex_data /\ 0 <= o_boundRelaxation (q_opts ex_data) /\
  (forall i, (0 <= i < 2)%Z -> fitting (1/1000) (Some [0; 1] : option (list R)) None i) /\ (forall i, (0 <= i < 2)%Z -> fitting (1/1000) (Some [0; 1] : option (list R)) (Some ex_st) i).
Proof.
  assert (JK : junk_ok (N := ex_N) ex_junk) by (intros k Hk; unfold ex_junk; rewrite zlen_repeat; lia).
  split; [exact JK|]. split.
  { destruct (new_ok (N := ex_N) ex_junk JK 2 HST_UNKNOWN optDefault) as (l0 & l1 & W & V & _). destruct (V eq_refl) as (-> & -> & V').
    assert (X : xwf (N := ex_N) 2 (qb_setH (HArr (N := ex_N) (Some [4; 1; 1; 2])) (qb_new (N := ex_N) ex_junk 2 HST_UNKNOWN optDefault))).
    { apply setH_ok; [split; [exact W|exact V']|]. cbn. unfold zlen. cbn. lia. }
    destruct X as (X1 & X2). split; [|exact X2]. unfold ex_data. apply wf_set_ub; [|reflexivity]. apply wf_set_lb; [|reflexivity]. apply wf_set_g; [exact X1|reflexivity]. }
  split.
  { change (0 <= 10000). lra. }
  split; intros i Hi; destruct (two i Hi) as [-> | ->]; unfold fitting.
  - left. reflexivity.
  - right. change (guess_at (Some [0; 1]) 1) with 1. rewrite Rabs_right; lra.
  - reflexivity.
  - change (0 <= 1). lra.
Qed.

Print Assumptions C36_auxiliary.
Print Assumptions C36_refuted.
Print Assumptions C36_small_multiplier_refuted.
Print Assumptions C41_drift_correction.
Print Assumptions C41_refuted.
Print Assumptions C42_ramping.
Print Assumptions C42_refuted.
