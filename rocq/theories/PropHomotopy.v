(** Solutions returned by hotstart (C37) and the optimality conditions along the homotopy (C35). *)
From Coq Require Import QArith.
From Verif Require Import Base Types Num Options Indexlist IndexlistProofs Loops RSum LinSpec SafeLib SubjectTo SubjectToProofs SubjectToProofs2
  Flipper PropFlipper Matrices MatLib MatSafe LinAlg PropLinAlg QProblemB QPBSafe QPBSafe2 QPBSafe3 QPBSafe4 QPBSafe5 QPBSafe6 QPBEx QPBX1 QPBX2 QPBX3 QPBX4 QPBX5 QPBX6 QPBX7
  PropRatio PropChol PropAux PropStep QPBX8 QPBX9 QPBX10 QPBX11.
From Verif Require Kkt.
Local Open Scope R_scope.

Section Homotopy.
Variables eps zero infty : R.
Hypothesis zero_nn : 0 <= zero < 1.
Hypothesis eps_nn : 0 <= eps.
Notation N := (RNumT eps zero infty).
Notation arr := (list R).
Notation xv := (xv eps zero infty).
Notation yv := (yv eps zero infty).
Notation gv := (gv eps zero infty).
Notation lv := (lv eps zero infty).
Notation uv := (uv eps zero infty).
Notation sv := (sv eps zero infty).
Notation bo := (bo).
Variable junk : Z -> arr.
Hypothesis J : junk_ok (N := N) junk.
Variable cpu : Z -> bool.

(** ** What a solution of nearby data is *)
(** no bound is requested *)
Definition no_low (l : option R) : Prop := match l with None => True | Some w => w <= - infty end.
Definition no_up (u : option R) : Prop := match u with None => True | Some w => infty <= w end.
(** the value b is the requested one w up to the slack D and the relative tolerance tol *)
Definition close (D tol w b : R) : Prop := Rabs (w - b) <= D + tol * Rmax 1 (Rabs w).
(** b serves as the requested bound; [far] says how far away a bound is that was not
    requested, if one is there *)
Definition low_for (D tol : R) (far : option R) (l b : option R) : Prop :=
  match b with
  | None => no_low l
  | Some v => (exists w, l = Some w /\ close D tol w v) \/ (no_low l /\ exists f, far = Some f /\ v <= - f)
  end.
Definition up_for (D tol : R) (far : option R) (u b : option R) : Prop :=
  match b with
  | None => no_up u
  | Some v => (exists w, u = Some w /\ close D tol w v) \/ (no_up u /\ exists f, far = Some f /\ f <= v)
  end.

(** (x, y) solves a QP with Hessian Hm whose data are close to the requested ones:
    x is its only minimiser, and y is a multiplier up to D *)
Definition solves_nearby (n : Z) (Hm : Z -> Z -> R) (D tol : R) (far : option R) (gn : arr) (lbn ubn : option arr) (x y : Z -> R) : Prop :=
  exists (g' : Z -> R) (lb' ub' : Z -> option R) (y' : Z -> R),
    let q := Kkt.mkQp n 0 Hm g' (fun _ _ => 0) lb' ub' (fun _ => None) (fun _ => None) in
    Kkt.kkt q x y' (fun _ => 0) /\ Kkt.minimiser q x /\ (forall z, Kkt.minimiser q z -> forall i, (0 <= i < n)%Z -> z i = x i) /\
    forall i, (0 <= i < n)%Z -> close D tol (zn 0 gn i) (g' i) /\ Rabs (y' i - y i) <= D /\ low_for D tol far (bo lbn i) (lb' i) /\ up_for D tol far (bo ubn i) (ub' i).

Lemma quad_Hx n Hm v : quad n Hm v = rsum 0 n (fun i => v i * rsum 0 n (fun j => Hm i j * v j)).
Proof. unfold quad. apply rsum_ext. intros i _. rewrite <- rsum_scal. apply rsum_ext. intros; ring. Qed.
Lemma kkt_solves n Hm lam D tol far gn lbn ubn x y (g' : Z -> R) (lb' ub' : Z -> option R) (y' : Z -> R) : (0 < n)%Z -> symm_on n Hm -> strong n Hm lam -> 0 < lam ->
  (forall i, (0 <= i < n)%Z -> matvec n Hm x i + g' i = y' i) ->
  (forall i, (0 <= i < n)%Z -> Kkt.within (lb' i) (ub' i) (x i) /\ Kkt.complementary (lb' i) (ub' i) (x i) (y' i) /\
    close D tol (zn 0 gn i) (g' i) /\ Rabs (y' i - y i) <= D /\ low_for D tol far (bo lbn i) (lb' i) /\ up_for D tol far (bo ubn i) (ub' i)) ->
  solves_nearby n Hm D tol far gn lbn ubn x y.
Proof.
  intros Hn SY SG LA ST AT. exists g', lb', ub', y'. cbv zeta. set (q := Kkt.mkQp _ _ _ _ _ _ _ _ _).
  assert (SQ : Kkt.symmetric q) by (intros i j Hi Hj; now apply SY).
  assert (PD : Kkt.pd q) by (intros v V; pose proof (strong_posdef n Hm lam LA SG v V) as Q; rewrite quad_Hx in Q; exact Q).
  assert (PS : Kkt.psd q).
  { intros v. apply Rle_trans with (lam * rsum 0 n (fun i => v i * v i)); [|pose proof (SG v) as Q; rewrite quad_Hx in Q; exact Q]. apply Rmult_le_pos; [lra|]. apply rsum_nonneg. intros; nra. }
  assert (K : Kkt.kkt q x y' (fun _ => 0)).
  { split; [split; [intros i Hi; apply AT, Hi|cbn; intros; lia]|]. split; [|split; [intros i Hi; apply AT, Hi|cbn; intros; lia]].
    intros i Hi. specialize (ST i Hi). unfold Kkt.stationarity, Kkt.Hx. cbn [Kkt.q_g Kkt.q_nV Kkt.q_nC Kkt.q_H q]. rewrite (rsum_empty 0 0) by lia. unfold matvec in ST. lra. }
  split; [exact K|]. split; [apply (Kkt.kkt_minimiser q x y' (fun _ => 0)); auto; cbn; lia|].
  split; [intros z Mz i Hi; apply (Kkt.kkt_unique q x y' (fun _ => 0) z); auto; cbn; lia|]. intros i Hi. apply AT, Hi.
Qed.

(** ** From the end of a run to nearby data *)
Definition seen_low (D tol : R) (far : option R) (l : option R) (cur x : R) : Prop :=
  (exists w, l = Some w /\ Rabs (w - cur) <= tol * Rmax 1 (Rabs w)) \/ (no_low l /\ (Rabs (x - cur) <= D -> exists f, far = Some f /\ x <= - f)).
Definition seen_up (D tol : R) (far : option R) (u : option R) (cur x : R) : Prop :=
  (exists w, u = Some w /\ Rabs (w - cur) <= tol * Rmax 1 (Rabs w)) \/ (no_up u /\ (Rabs (x - cur) <= D -> exists f, far = Some f /\ f <= x)).
Definition relax_low (v : SubjectToStatus) (l : option R) (cur x : R) : option R :=
  match v with ST_LOWER => Some x | _ => match l with None => None | Some w => if Rle_dec w (- infty) then None else Some (Rmin cur x) end end.
Definition relax_up (v : SubjectToStatus) (u : option R) (cur x : R) : option R :=
  match v with ST_UPPER => Some x | _ => match u with None => None | Some w => if Rle_dec infty w then None else Some (Rmax cur x) end end.
Definition relax_y (v : SubjectToStatus) (y : R) : R :=
  match v with ST_LOWER => Rmax y 0 | ST_UPPER => Rmin y 0 | _ => y end.

Lemma close_by D tol w cur v : Rabs (w - cur) <= tol * Rmax 1 (Rabs w) -> Rabs (cur - v) <= D -> close D tol w v.
Proof. intros A B. unfold close. replace (w - v) with ((w - cur) + (cur - v)) by ring. eapply Rle_trans; [apply Rabs_triang|lra]. Qed.
Lemma relax_low_for D tol far l cur x v : 0 <= D -> seen_low D tol far l cur x -> cur - D <= x -> (v = ST_LOWER -> x <= cur + D) -> low_for D tol far l (relax_low v l cur x).
Proof.
  intros HD S LB LO. unfold relax_low.
  assert (A : v = ST_LOWER -> low_for D tol far l (Some x)).
  { intros V. specialize (LO V). assert (X : Rabs (x - cur) <= D) by (apply Rabs_le; lra).
    destruct S as [(w & E & H)|(NL & H)]; [left; exists w; split; [exact E|]; apply (close_by D tol w cur); [exact H|rewrite Rabs_minus_sym; exact X]|].
    right. split; [exact NL|]. exact (H X). }
  assert (B : low_for D tol far l (match l with None => None | Some w => if Rle_dec w (- infty) then None else Some (Rmin cur x) end)).
  { destruct l as [w|]; [|exact I]. destruct (Rle_dec w (- infty)) as [Y|Y]; [exact Y|]. destruct S as [(w' & E & H)|(NL & _)]; [|contradiction].
    left. exists w'. split; [exact E|]. apply (close_by D tol w' cur); [exact H|]. apply Rabs_le. unfold Rmin. destruct (Rle_dec cur x); lra. }
  destruct v; auto.
Qed.
Lemma relax_up_for D tol far u cur x v : 0 <= D -> seen_up D tol far u cur x -> x <= cur + D -> (v = ST_UPPER -> cur - D <= x) -> up_for D tol far u (relax_up v u cur x).
Proof.
  intros HD S LB LO. unfold relax_up.
  assert (A : v = ST_UPPER -> up_for D tol far u (Some x)).
  { intros V. specialize (LO V). assert (X : Rabs (x - cur) <= D) by (apply Rabs_le; lra).
    destruct S as [(w & E & H)|(NL & H)]; [left; exists w; split; [exact E|]; apply (close_by D tol w cur); [exact H|rewrite Rabs_minus_sym; exact X]|].
    right. split; [exact NL|]. exact (H X). }
  assert (B : up_for D tol far u (match u with None => None | Some w => if Rle_dec infty w then None else Some (Rmax cur x) end)).
  { destruct u as [w|]; [|exact I]. destruct (Rle_dec infty w) as [Y|Y]; [exact Y|]. destruct S as [(w' & E & H)|(NL & _)]; [|contradiction].
    left. exists w'. split; [exact E|]. apply (close_by D tol w' cur); [exact H|]. apply Rabs_le. unfold Rmax. destruct (Rle_dec cur x); lra. }
  destruct v; auto.
Qed.
Lemma relax_within v l u cl cu x : Kkt.within (relax_low v l cl x) (relax_up v u cu x) x.
Proof.
  split; intros b E.
  - assert (K : forall o, (match o : option R with None => None | Some w => if Rle_dec w (- infty) then None else Some (Rmin cl x) end) = Some b -> b <= x).
    { intros [w|]; [|discriminate]. destruct (Rle_dec w (- infty)); [discriminate|]. intros [= <-]. apply Rmin_r. }
    destruct v; cbn in E; eauto. injection E as <-. lra.
  - assert (K : forall o, (match o : option R with None => None | Some w => if Rle_dec infty w then None else Some (Rmax cu x) end) = Some b -> x <= b).
    { intros [w|]; [|discriminate]. destruct (Rle_dec infty w); [discriminate|]. intros [= <-]. apply Rmax_r. }
    destruct v; cbn in E; eauto. injection E as <-. lra.
Qed.

Lemma nearby n Hm lam (s : qpb N) D tol far (gn : arr) lbn ubn : (0 < n)%Z -> symm_on n Hm -> strong n Hm lam -> 0 < lam -> 0 <= D -> opt eps zero infty D n s Hm ->
  (forall i, (0 <= i < n)%Z -> near tol (zn 0 gn i) (gv s i) /\ seen_low D tol far (bo lbn i) (lv s i) (xv s i) /\ seen_up D tol far (bo ubn i) (uv s i) (xv s i)) ->
  solves_nearby n Hm D tol far gn lbn ubn (xv s) (yv s).
Proof.
  intros Hn SY SG LA HD (ST & O) A.
  set (y' := fun i => relax_y (sv s i) (yv s i)).
  assert (Y : forall i, (0 <= i < n)%Z -> Rabs (y' i - yv s i) <= D).
  { intros i Hi. specialize (O i Hi). unfold y', relax_y, opt_bd in *. apply Rabs_le. destruct (sv s i); try contradiction; unfold Rmax, Rmin; try destruct (Rle_dec _ _); lra. }
  apply (kkt_solves n Hm lam D tol far gn lbn ubn _ _ (fun i => gv s i + (y' i - yv s i)) (fun i => relax_low (sv s i) (bo lbn i) (lv s i) (xv s i))
    (fun i => relax_up (sv s i) (bo ubn i) (uv s i) (xv s i)) y'); auto.
  - intros i Hi. specialize (ST i Hi). lra.
  - intros i Hi. destruct (A i Hi) as (G & SL & SU). specialize (O i Hi). specialize (Y i Hi).
    split; [apply relax_within|]. split.
    { split; intros P; unfold y', relax_y, opt_bd, relax_low, relax_up in *; destruct (sv s i); try contradiction; try reflexivity; exfalso; unfold Rmax, Rmin in P; try destruct (Rle_dec _ _); lra. }
    split; [apply (close_by D tol _ (gv s i)); [exact G|]; replace (gv s i - (gv s i + (y' i - yv s i))) with (- (y' i - yv s i)) by ring; rewrite Rabs_Ropp; exact Y|].
    split; [exact Y|]. split.
    + apply relax_low_for; auto; unfold opt_bd in O; destruct (sv s i); try contradiction; try lra; discriminate.
    + apply relax_up_for; auto; unfold opt_bd in O; destruct (sv s i); try contradiction; try lra; discriminate.
Qed.

(** bounds that were not requested: none unless far bounds are in use and their
    activity test is coarser than the termination test *)
Definition far_left (o : options N) (D F0 c : R) : option R :=
  if o_enableFarBounds o then if Rle_dec ((c - o_terminationTolerance o) * F0) D then Some ((1 - o_terminationTolerance o) * F0 - D) else None else None.

Lemma settled_nearby n Hm lam (s : qpb N) D F0 c (gn : arr) lbn ubn : symm_on n Hm -> strong n Hm lam -> 0 < lam -> 0 <= D ->
  (o_enableFarBounds (q_opts s) = true -> 1 <= F0 /\ o_terminationTolerance (q_opts s) <= 1) ->
  settled_run eps zero infty n Hm D F0 c (o_terminationTolerance (q_opts s)) gn lbn ubn s ->
  solves_nearby n Hm D (o_terminationTolerance (q_opts s)) (far_left (q_opts s) D F0 c) gn lbn ubn (xv s) (yv s).
Proof.
  intros SY SG LA HD HF (_ & _ & ((l0 & l1 & LO) & O) & lf & uf & (AG & AL & AU) & OFF & OK).
  pose proof (w_n _ _ _ _ (lo_wf _ _ _ _ _ _ _ _ LO)) as Hn. set (tol := o_terminationTolerance (q_opts s)) in *. cbn in AL, AU.
  apply (nearby n Hm lam); auto. intros i Hi. specialize (AL i Hi). specialize (AU i Hi). split; [now apply AG|]. destruct (OK i Hi) as (OL & OU). clear OK.
  destruct (o_enableFarBounds (q_opts s)) eqn:FB.
  2:{ destruct (OFF eq_refl) as (-> & ->). split; left; eexists; (split; [reflexivity|assumption]). }
  destruct (HF eq_refl) as (F1 & T1). clear HF OFF.
  assert (CORE : forall b cur, near tol b cur -> clear F0 c b (xv s i) -> Rabs (xv s i - cur) <= D ->
    far_left (q_opts s) D F0 c = Some ((1 - tol) * F0 - D) /\ Rabs (b - cur) <= tol * Rabs b /\ (1 - tol) * F0 <= (1 - tol) * Rabs b).
  { intros b cur NR (CB & CX) X. unfold near in NR. rewrite Rmax_right in NR by lra. split; [|split; [exact NR|apply Rmult_le_compat_l; lra]].
    assert (K : c * Rabs b <= tol * Rabs b + D). { eapply Rle_trans; [exact CX|]. replace (b - xv s i) with ((b - cur) + - (xv s i - cur)) by ring. eapply Rle_trans; [apply Rabs_triang|]. rewrite Rabs_Ropp. lra. }
    unfold far_left. rewrite FB. fold tol. destruct (Rle_dec ((c - tol) * F0) D) as [Y|Y]; [reflexivity|]. exfalso. apply Y.
    destruct (Rle_dec 0 (c - tol)) as [Z|Z]; [|apply Rle_trans with 0; [|exact HD]; rewrite <- (Rmult_0_l F0); apply Rmult_le_compat_r; lra].
    apply Rle_trans with ((c - tol) * Rabs b); [apply Rmult_le_compat_l; lra|lra]. }
  split.
  - unfold low_ok in OL. assert (L : bo lbn i = Some (zn 0 lf i) \/ (no_low (bo lbn i) /\ zn 0 lf i <= 0 /\ clear F0 c (zn 0 lf i) (xv s i))).
    { destruct (bo lbn i) as [w|]; [|right; split; [exact I|exact OL]]. destruct OL as [E|OL]; [left; now rewrite E|right; exact OL]. }
    destruct L as [E|(NL & B0 & CL)]; [left; eexists; split; [exact E|exact AL]|]. right. split; [exact NL|]. intros X.
    destruct (CORE _ _ AL CL X) as (F & NB & G). rewrite (Rabs_left1 (zn 0 lf i)) in NB, G by exact B0.
    exists ((1 - tol) * F0 - D). split; [exact F|]. pose proof (Rle_abs (- (zn 0 lf i - lv s i))) as A1. rewrite Rabs_Ropp in A1. pose proof (Rle_abs (xv s i - lv s i)). lra.
  - unfold up_ok in OU. assert (L : bo ubn i = Some (zn 0 uf i) \/ (no_up (bo ubn i) /\ 0 <= zn 0 uf i /\ clear F0 c (zn 0 uf i) (xv s i))).
    { destruct (bo ubn i) as [w|]; [|right; split; [exact I|exact OU]]. destruct OU as [E|OU]; [left; now rewrite E|right; exact OU]. }
    destruct L as [E|(NL & B0 & CL)]; [left; eexists; split; [exact E|exact AU]|]. right. split; [exact NL|]. intros X.
    destruct (CORE _ _ AU CL X) as (F & NB & G). rewrite (Rabs_pos_eq (zn 0 uf i)) in NB, G by exact B0.
    exists ((1 - tol) * F0 - D). split; [exact F|]. pose proof (Rle_abs (zn 0 uf i - uv s i)) as A1. pose proof (Rle_abs (- (xv s i - uv s i))) as A2. rewrite Rabs_Ropp in A2. lra.
Qed.

(** ** C37 *)
(** objects from which a hotstart is covered: the factor (if there is one) is that of
    Hm on the free variables, no regularisation is in use, the options are regular,
    and the current pair is optimal for the current data up to del *)
Definition covered (n : Z) (Hm : Z -> Z -> R) (del : R) (s : qpb N) : Prop :=
  (exists l0 l1, begun eps zero infty n Hm s l0 l1) /\ opt eps zero infty del n s Hm /\ accepted (q_status s).
Definition covered_far (o : options N) : Prop := o_enableFarBounds o = true -> 1 <= o_initialFarBounds o /\ o_terminationTolerance o <= 1.

Lemma slack_nn n (o : options N) fuel lbn ubn del e : coverable eps zero infty n o fuel lbn ubn del e -> 0 <= slack eps zero infty o fuel del e.
Proof.
  intros (_ & E2 & D0 & _). unfold slack. assert (0 <= IZR (Z.of_nat fuel)) by (apply IZR_le; lia). assert (0 <= IZR (Z.of_nat fuel) * e) by (apply Rmult_le_pos; lra).
  destruct (o_enableFarBounds o); lra.
Qed.

Theorem C37_hotstart n Hm lam fuel (s : qpb N) (gn : arr) lbn ubn nWSR del e k s' : symm_on n Hm -> strong n Hm lam -> zero * zero < lam ->
  covered n Hm del s -> (n <= zlen gn)%Z -> olen (N := N) n lbn -> olen (N := N) n ubn ->
  coverable eps zero infty n (q_opts s) fuel lbn ubn del e -> covered_far (q_opts s) -> uncrossed eps n lbn ubn ->
  hotstart (N := N) junk cpu fuel gn lbn ubn nWSR None s = Ok (SUCCESSFUL_RETURN, k, s') ->
  let D := slack eps zero infty (q_opts s) fuel del e in
  q_status s' = QPS_SOLVED /\ q_infeasible s' = false /\ q_opts s' = q_opts s /\ covered n Hm D s' /\
  solves_nearby n Hm D (o_terminationTolerance (q_opts s)) (far_left (q_opts s) D (o_initialFarBounds (q_opts s)) (o_boundTolerance (q_opts s) / spread eps zero infty s)) gn lbn ubn (zn 0 (q_x s')) (zn 0 (q_y s')).
Proof.
  intros SY SG LA ((l0 & l1 & B) & O & A) Hg Hl Hu CO CF UC E D. pose proof (slack_nn _ _ _ _ _ _ _ CO) as HD. fold D in HD.
  assert (LP : 0 < lam) by (pose proof (Rle_0_sqr zero) as Q; unfold Rsqr in Q; lra).
  destruct (hotstart_exact eps zero infty (proj1 zero_nn) eps_nn junk J cpu n Hm lam fuel s l0 l1 gn lbn ubn nWSR del e k s' SY SG LA B O A Hg Hl Hu CO E)
    as [(X & _)|(_ & EH & EO & ER & _ & HC & SR)]; [contradiction|]. fold D in SR. pose proof SR as (I1 & I2 & ((m0 & m1 & LO) & O') & _).
  split; [exact I2|]. split; [exact I1|]. split; [exact EO|]. split.
  - split; [|split; [exact O'|right; right; exact I2]]. exists m0, m1. destruct LO. constructor; auto.
    + unfold usingReg. rewrite ER. exact (be_reg _ _ _ _ _ _ _ _ B).
    + intros X. congruence.
  - rewrite <- EO. apply (settled_nearby n Hm lam s' D); auto; rewrite EO; auto.
Qed.

Theorem C37_init n lam fuel (s : qpb N) h M (g lb ub : option arr) nWSR (xOpt yOpt : option arr) guess e k s' :
  qok n s -> startable eps zero infty n s -> harg_ok (N := N) n h -> matrix_arg eps zero infty n h = Some M -> stored_exactly eps zero infty n M ->
  symm_on n (entries eps zero infty M) -> strong n (entries eps zero infty M) lam -> eps < lam -> zero * zero < lam ->
  olen (N := N) n g -> olen (N := N) n lb -> olen (N := N) n ub -> olen (N := N) n xOpt -> olen (N := N) n yOpt -> (forall gb, guess = Some gb -> gwf gb) ->
  (forall i, (0 <= i < n)%Z -> fitting eps yOpt guess i) ->
  o_enableRegularisation (q_opts s) = false -> tuned eps zero infty (q_opts s) -> 0 <= o_boundRelaxation (q_opts s) -> o_enableEqualities (q_opts s) = false ->
  (o_enableRamping (q_opts s) = true -> (2 <= n)%Z /\ 0 <= o_initialRamping (q_opts s) /\ 0 <= o_finalRamping (q_opts s)) ->
  let lbn := Some (taken (N := N) n lb (- infty)) in let ubn := Some (taken (N := N) n ub infty) in
  coverable eps zero infty n (q_opts s) fuel lbn ubn 0 e -> covered_far (q_opts s) ->
  qb_init (N := N) junk cpu fuel h g lb ub nWSR xOpt yOpt guess None s = Ok (SUCCESSFUL_RETURN, k, s') ->
  let D := slack eps zero infty (q_opts s) fuel 0 e in
  q_status s' = QPS_SOLVED /\ q_infeasible s' = false /\ q_opts s' = q_opts s /\
  exists Hu c, in_use eps n (entries eps zero infty M) Hu /\ covered n Hu D s' /\
    (o_enableRamping (q_opts s) = false -> c = o_boundTolerance (q_opts s)) /\
    solves_nearby n Hu D (o_terminationTolerance (q_opts s)) (far_left (q_opts s) D (o_initialFarBounds (q_opts s)) c) (taken (N := N) n g 0) lbn ubn (zn 0 (q_x s')) (zn 0 (q_y s')).
Proof.
  intros OK ST Hh EM SM SY SG LE LA Hg Hl Hu Hx Hy HG FI OR OT OB OQ RA lbn ubn CO CF E D.
  assert (LP : 0 < lam) by (pose proof (Rle_0_sqr zero) as Q; unfold Rsqr in Q; lra).
  assert (Hn : (0 < n)%Z) by (destruct OK as (? & ? & [] & _); auto).
  destruct (init_start eps zero infty zero_nn eps_nn junk J cpu n lam fuel s h M g lb ub nWSR xOpt yOpt guess k s' OK ST Hh EM SM SG LE LP Hg Hl Hu Hx Hy HG FI OR OT OB OQ RA E)
    as (s3 & l0 & l1 & Hu' & B & O & Q & EO & IU & INF & HOT).
  assert (ZZ : zero * zero < 1) by nra.
  assert (SH : exists lam', symm_on n Hu' /\ strong n Hu' lam' /\ zero * zero < lam').
  { destruct IU as [-> | (-> & _)]; [exists lam; auto|]. exists 1. destruct (delta_strong n ltac:(lia)). auto. }
  destruct SH as (lam' & SY' & SG' & LA').
  assert (LT : forall src d, olen (N := N) n src -> (n <= zlen (taken (N := N) n src d))%Z) by (intros; rewrite zlen_taken by (auto; lia); lia).
  assert (UC : uncrossed eps n lbn ubn).
  { destruct (hotstart_exact eps zero infty (proj1 zero_nn) eps_nn junk J cpu n Hu' lam' fuel s3 l0 l1 (taken (N := N) n g 0) lbn ubn nWSR 0 e k s' SY' SG' LA' B O
      ltac:(rewrite Q; now left) (LT _ _ Hg) (LT _ _ Hl) (LT _ _ Hu) ltac:(rewrite EO; exact CO) HOT) as [(_ & X)|(X & _)]; [|exact X].
    rewrite X in INF. discriminate INF. }
  assert (CV : covered n Hu' 0 s3) by (split; [exists l0, l1; exact B|split; [exact O|rewrite Q; now left]]).
  pose proof (C37_hotstart n Hu' lam' fuel s3 (taken (N := N) n g 0) lbn ubn nWSR 0 e k s' SY' SG' LA' CV (LT _ _ Hg) (LT _ _ Hl) (LT _ _ Hu)) as P.
  rewrite EO in P. specialize (P CO CF UC HOT). fold D in P. destruct P as (P1 & P2 & P3 & P4 & P5).
  split; [exact P1|]. split; [exact P2|]. split; [exact P3|].
  exists Hu', (o_boundTolerance (q_opts s) / spread eps zero infty s3). split; [exact IU|]. split; [exact P4|]. split; [|exact P5].
  intros RF. unfold spread. rewrite EO, RF. rcar. field.
Qed.

(** ** C35 *)
(** states of solveQP after whole iterations, each with its working set change *)
Inductive reaches (gn : arr) (lbn ubn : option arr) (nWSR p : Z) : Z -> qpb N * deltas N -> Z -> qpb N * deltas N -> Prop :=
| reaches_start i st : reaches gn lbn ubn nWSR p i st i st
| reaches_next i st j st' st'' : reaches gn lbn ubn nWSR p i st j st' -> (j < nWSR)%Z ->
    solveIter (N := N) junk cpu gn lbn ubn nWSR p j st' = Ok (Next st'') -> reaches gn lbn ubn nWSR p i st (j + 1) st''.

Theorem C35_homotopy n Hm lam (s s1 : qpb N) (gn ln un : arr) nWSR p del e j sj dj : symm_on n Hm -> strong n Hm lam -> zero * zero < lam ->
  started eps zero infty del n Hm s -> (n <= zlen gn)%Z -> (n <= zlen ln)%Z -> (n <= zlen un)%Z -> two_sided eps zero infty n (q_opts s) ln un ->
  (forall i, (0 <= i < n)%Z -> zn 0 ln i <= zn 0 un i + eps) -> o_epsDen (q_opts s) <= e -> eps <= e -> 0 <= del <= - o_epsNum (q_opts s) ->
  setupSubjectToType (N := N) (Some ln) (Some un) s = Ok s1 ->
  reaches gn (Some ln) (Some un) nWSR p p (set_q_unbounded false (set_q_infeasible false s1), freshDeltas (N := N) junk n) j (sj, dj) -> (p < j)%Z ->
  optimal eps zero infty n Hm sj /\ on_working_set eps zero infty n sj /\ hess eps zero infty n sj Hm.
Proof.
  intros SY SG LA ((l0 & l1 & L) & O) Hg Hl Hu TS CB E1 E2 DE ES RE Hj. pose proof (lo_wf _ _ _ _ _ _ _ _ L) as W. pose proof (w_n _ _ _ _ W) as Hn.
  destruct (wp_inv _ _ (types_exact eps zero infty n s l0 l1 ln un W Hl Hu TS)) as (s1' & ES' & b & Es1 & W1 & ST & TB & NL & NUp).
  injection (eq_trans (eq_sym ES) ES') as <-. set (s2 := set_q_unbounded false (set_q_infeasible false s1)) in *.
  assert (W2 : qwf n s2 l0 l1) by (apply (wf_same n s1); [exact W1|samearr]).
  assert (H2 : held eps zero infty s s2) by (subst s2 s1; constructor; try reflexivity; try (now left); cbn; lia).
  assert (L2 : loaded eps zero infty n Hm s2 l0 l1) by (apply (loaded_set eps zero infty n Hm s); auto; subst s2 s1; [reflexivity|exact ST]).
  assert (O2 : opt eps zero infty del n s2 Hm). { destruct O as (O & OB). split; [subst s2 s1; exact O|]. intros i Hi. specialize (OB i Hi). subst s2 s1. unfold QPBX5.sv in *. cbn [q_bounds set_q_bounds set_q_unbounded set_q_infeasible]. rewrite ST. exact OB. }
  assert (R2 : ready eps zero infty del n Hm s2). { split; [|exact O2]. exists l0, l1. destruct L2. constructor; auto; subst s2 s1; auto. }
  assert (EO2 : q_opts s2 = q_opts s) by (subst s2 s1; reflexivity). clearbody s2.
  assert (INV : dwf n dj /\ q_opts sj = q_opts s /\ ((j = p /\ ready eps zero infty del n Hm sj) \/ ((p < j)%Z /\ ready eps zero infty 0 n Hm sj))).
  { clear Hj. remember (s2, freshDeltas (N := N) junk n) as st0 eqn:E0. remember (sj, dj) as stj eqn:Ej. revert sj dj Ej. remember p as p0 eqn:Ep in RE at 2.
    induction RE as [i st|i sta j st st'' RE IH Hjn EI]; intros sj dj Ej; subst.
    - injection Ej as <- <-. split; [apply (freshDeltas_wf (N := N) junk J n); lia|]. split; [exact EO2|]. left. auto.
    - destruct st as [s' d']. destruct (IH eq_refl eq_refl s' d' eq_refl) as (D' & O' & R').
      assert (RD : exists del', 0 <= del' <= del /\ ready eps zero infty del' n Hm s' /\ (p <= j)%Z).
      { destruct R' as [(-> & R')|(Hj' & R')]; [exists del|exists 0]; (split; [lra|split; [exact R'|lia]]). }
      destruct RD as (del' & Hd & RD & PJ).
      pose proof (solveIter_exact eps zero infty (proj1 zero_nn) eps_nn junk J n Hm lam SY SG LA gn (Some ln) (Some un) Hg Hl Hu CB cpu s' del' e nWSR p j d' RD D') as SX.
      rewrite O' in SX. specialize (SX E1 E2 ltac:(lra)). apply wp_inv in SX as (c & Ec & SX). injection (eq_trans (eq_sym EI) Ec) as <-.
      destruct SX as (D3 & K3 & R3). split; [exact D3|]. split; [rewrite (k_opts _ _ _ _ _ K3); exact O'|]. right. split; [lia|exact R3]. }
  destruct INV as (_ & _ & [(X & _)|(_ & ((m0 & m1 & SO) & (S0 & O0)))]); [lia|].
  split; [|split; [|apply SO]].
  - apply optimal_intro; [exact S0|]. intros i Hi. left. specialize (O0 i Hi). unfold opt_bd in O0. unfold consistent.
    destruct (QPBX5.sv eps zero infty sj i); try contradiction; unfold PropAux.consistent; lra.
  - intros i Hi. specialize (O0 i Hi). unfold opt_bd in O0. repeat split; intros X; rewrite X in O0; lra.
Qed.
End Homotopy.

(** ** Unguarded starts and requests *)
Notation qres := (res (returnValue * Z * qpb QNum)).
Definition ce_from (r : qres) (g lb ub : Q) : qres :=
  match r with Ok (SUCCESSFUL_RETURN, _, s) => hotstart (N := QNum) ce_junk (fun _ => false) 30 [g] (Some [lb]) (Some [ub]) 10 None s | _ => UB end.
Definition ce_init (o : options QNum) (g lb ub : Q) (xOpt yOpt : option (list QNum)) (guess : option subjectTo) : qres :=
  qb_init (N := QNum) ce_junk (fun _ => false) 30 (HArr (N := QNum) (Some [1%Q])) (Some [g]) (Some [lb]) (Some [ub]) 10 xOpt yOpt guess None (qb_new (N := QNum) ce_junk 1 HST_UNKNOWN o).
Definition ce_solved (r : qres) (x : Q) : Prop :=
  exists k s, r = Ok (SUCCESSFUL_RETURN, k, s) /\ q_status s = QPS_SOLVED /\ q_x s = [x].
Lemma ce_solved_by (r : qres) x : match r with Ok (SUCCESSFUL_RETURN, _, s) => q_status s = QPS_SOLVED /\ q_x s = [x] | _ => False end -> ce_solved r x.
Proof. destruct r as [((v & k) & s)| |]; try contradiction. destruct v; try contradiction. intros (A & B). exists k, s. auto. Qed.

(** an inconsistent guess: min 1/2 x^2, -10 <= x <= 10, started at x = 2, y = 5 with an empty
    working set, is "solved" by x = 5 *)
Theorem C37_guess_refuted : ce_solved (ce_init optDefault 0 (-10) 10 (Some [2%Q]) (Some [5%Q]) (Some ce_guess)) 5.
Proof. apply ce_solved_by. vm_compute. auto. Qed.
(** enableEqualities: the bounds of the solved problem -1 <= x <= 1 move to 0 <= x <= 0, then g becomes -1: "solved" by x = 1 *)
Definition ce_eq_opts : options QNum := set_o_enableEqualities (N := QNum) true optDefault.
Theorem C37_equalities_refuted : ce_solved (ce_from (ce_from (ce_init ce_eq_opts 0 (-1) 1 None None None) 0 0 0) (-1) 0 0) 1.
Proof. apply ce_solved_by. vm_compute. auto. Qed.
(** contradictory bounds 3 <= x <= 2: the object keeps its old solution and its status *)
Theorem C37_crossed_refuted : ce_solved (ce_from (ce_init optDefault 0 (-1) 1 None None None) (-5) 3 2) 0.
Proof. apply ce_solved_by. vm_compute. auto. Qed.
(** default options, min 1/2 x^2 + g x, 0 <= x <= 1: two hotstarts that lower g by less than the tolerance of the
    ratio test each leave a multiplier of the wrong sign; the third, with g = -1/2, then keeps the lower bound *)
Definition ce_step : Q := (1999 # 10000000000000000)%Q.
Theorem C37_creep_refuted :
  ce_solved (ce_from (ce_from (ce_from (ce_init optDefault 0 0 1 None None None) (- ce_step) 0 1) (- (2 * ce_step)) 0 1) (-1#2) 0 1) 0.
Proof. apply ce_solved_by. vm_compute. auto. Qed.
(** the same request from the first solution gives the minimiser *)
Example C37_no_creep : ce_solved (ce_from (ce_init optDefault 0 0 1 None None None) (-1#2) 0 1) (1#2).
Proof. apply ce_solved_by. vm_compute. auto. Qed.

(** ** Example *)
Ltac lits := cbn -[Rlit]; repeat match goal with |- context [Rlit ?m ?e] =>
  let b := eval vm_compute in (0 <=? e)%Z in
  match b with
  | true => let v := eval vm_compute in (m * 10 ^ e)%Z in change (Rlit m e) with (IZR v)
  | false => let v := eval vm_compute in (10 ^ (- e))%Z in change (Rlit m e) with (IZR m / IZR v)
  end end.
Definition ex_F := RNumT (1/1000000000000) (1/1000000) 1000000000.
Definition ex_fresh : qpb ex_F := qb_new (N := ex_F) ex_junk 2 HST_UNKNOWN optDefault.
Definition ex_arg : harg ex_F := HArr (N := ex_F) (Some [4; 1; 1; 2]).
Definition ex_mat : symmat ex_F := SDense (N := ex_F) (mkDense 2 2 2 [4; 1; 1; 2]).
Example C37_ex : let ent := entries (1/1000000000000) (1/1000000) 1000000000 ex_mat in let o := q_opts ex_fresh in
  let lbn := Some (taken (N := ex_F) 2 (Some [-1; 0]) (-1000000000)) in let ubn := Some (taken (N := ex_F) 2 (Some [1; 1]) 1000000000) in
  qok (N := ex_F) 2 ex_fresh /\ startable (1/1000000000000) (1/1000000) 1000000000 2 ex_fresh /\ harg_ok (N := ex_F) 2 ex_arg /\
  matrix_arg (1/1000000000000) (1/1000000) 1000000000 2 ex_arg = Some ex_mat /\ stored_exactly (1/1000000000000) (1/1000000) 1000000000 2 ex_mat /\
  symm_on 2 ent /\ strong 2 ent 1 /\ o_enableRegularisation o = false /\ tuned (1/1000000000000) (1/1000000) 1000000000 o /\ o_enableEqualities o = false /\
  0 <= o_initialRamping o /\ 0 <= o_finalRamping o /\
  coverable (1/1000000000000) (1/1000000) 1000000000 2 o 2 lbn ubn 0 (1/1000000000) /\ covered_far (1/1000000000000) (1/1000000) 1000000000 o.
Proof.
  assert (JK : junk_ok (N := ex_F) ex_junk) by (intros k Hk; unfold ex_junk; rewrite zlen_repeat; lia).
  cbv zeta. split.
  { destruct (new_ok (N := ex_F) ex_junk JK 2 HST_UNKNOWN optDefault) as (l0 & l1 & W & V & V2). exists l0, l1. auto. }
  split. { right. split; [now left|]. split; [change (Rltb (1/1000000) 0 = false); apply Rltb_false; lra|]. intros _. split; [lia|]. split; [cbn; lia|]. split; lits; lra. }
  split; [cbn; unfold zlen; cbn; lia|]. split; [reflexivity|]. split. { cbn. split; [|auto]. repeat split; cbn; unfold zlen; cbn; lia. }
  split; [exact ex_symm|]. split; [exact ex_strong|]. split; [reflexivity|].
  split. { constructor; lits; try lra; try lia. }
  split; [reflexivity|]. split; [lits; lra|]. split; [lits; lra|]. split.
  - split; [lits; lra|]. split; [lra|]. split; [lra|]. split; [|intros X; discriminate X].
    intros _. split; [lits; lra|]. split; [lits; lra|]. split; [lits; lra|]. split; [|change (Z.of_nat 2 - 1)%Z with 1%Z; lits; lra].
    constructor; [reflexivity| | |].
    + intros i Hi u _ _. right. destruct (two i Hi) as [-> | ->]; [exists (-1)|exists 0]; (split; [reflexivity|]); lra.
    + intros i Hi u _ _. right. destruct (two i Hi) as [-> | ->]; exists 1; (split; [reflexivity|]); lra.
    + right. split; [exists 0%Z, (-1)|exists 0%Z, 1]; (split; [lia|]); (split; [reflexivity|]); lra.
  - intros _. split; lits; lra.
Qed.

Print Assumptions C35_homotopy.
Print Assumptions C37_hotstart.
Print Assumptions C37_init.
Print Assumptions C37_creep_refuted.
