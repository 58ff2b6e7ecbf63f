(** Exact hotstarts of QProblemB: from a solved problem to the next one. *)
From Verif Require Import Base Types Num Options Indexlist IndexlistProofs Loops RSum LinSpec SafeLib SubjectTo SubjectToProofs SubjectToProofs2
  Flipper PropFlipper Matrices MatLib MatSafe LinAlg PropLinAlg QProblemB QPBSafe QPBSafe2 QPBSafe3 QPBSafe4 QPBSafe5 QPBSafe6 QPBX1 QPBX2 QPBX3 QPBX4 QPBX5 QPBX6 QPBX7
  PropRatio PropChol PropAux PropStep QPBX8 QPBX9.
Local Open Scope R_scope.

Section X10.
Variables eps zero infty : R.
Hypothesis zero_nn : 0 <= zero.
Hypothesis eps_nn : 0 <= eps.
Notation N := (RNumT eps zero infty).
Notation arr := (list R).
Notation xv := (xv eps zero infty).
Notation yv := (yv eps zero infty).
Notation gv := (gv eps zero infty).
Notation lv := (lv eps zero infty).
Notation uv := (uv eps zero infty).
Notation sv := (sv eps zero infty).
Notation tv := (tv eps zero infty).
Notation opt := (opt eps zero infty).
Notation started := (started eps zero infty).
Notation loaded := (loaded eps zero infty).
Notation held := (held eps zero infty).
Notation arrived := (arrived eps zero infty).
Notation two_sided := (two_sided eps zero infty).
Variable junk : Z -> arr.
Hypothesis J : junk_ok (N := N) junk.
Variable cpu : Z -> bool.

Ltac rdx := rewrite (rd_ok 0) by (rcar; rewrite ?zlen_zupd; lia); cbn [bind].

Lemma strong_posdef n Hm lam : 0 < lam -> strong n Hm lam -> posdef n Hm.
Proof.
  intros L S x (i & Hi & X). specialize (S x). apply Rlt_le_trans with (lam * rsum 0 n (fun j => x j * x j)); [|exact S].
  apply Rmult_lt_0_compat; [exact L|]. rewrite (rsum_split 0 i n) by lia. rewrite (rsum_first i) by lia.
  assert (0 < x i * x i) by nra.
  assert (0 <= rsum 0 i (fun j => x j * x j)) by (apply rsum_nonneg; intros; nra).
  assert (0 <= rsum (i + 1) n (fun j => x j * x j)) by (apply rsum_nonneg; intros; nra). lra.
Qed.

(** ** The first factorisation *)
Record begun (n : Z) (Hm : Z -> Z -> R) (s : qpb N) (l0 l1 : list Z) : Prop := {
  be_wf : qwf n s l0 l1; be_chol : q_haveChol s = true -> cholesky eps zero infty n s l0 Hm; be_hess : hess eps zero infty n s Hm;
  be_reg : usingReg s = false; be_en : q_haveChol s = false -> o_enableRegularisation (q_opts s) = false;
  be_tuned : tuned eps zero infty (q_opts s); be_ramp : ramps eps zero infty n s; be_set : forall i, (0 <= i < n)%Z -> settled (sv s i) }.

Lemma initialCholesky_exact n Hm lam (s : qpb N) l0 l1 : symm_on n Hm -> strong n Hm lam -> 0 < lam -> begun n Hm s l0 l1 -> q_haveChol s = false ->
  wp (setupInitialCholesky (N := N) s) (fun '(r, s') => r = SUCCESSFUL_RETURN /\ exists R, s' = set_q_haveChol true (set_q_R (N := N) R s) /\ loaded n Hm s' l0 l1).
Proof.
  intros SY SG LA B HC. destruct B as [W _ HE RG EN TU RA SE]. specialize (EN HC). unfold setupInitialCholesky.
  apply wp_bind. eapply wp_mono; [apply (nFV_safe n s l0 l1 W)|]. intros fv _. rewrite EN, andb_false_r. cbn [bind negb]. change (SUCCESSFUL_RETURN =r? SUCCESSFUL_RETURN) with true. cbn [negb].
  apply wp_bind. eapply wp_mono; [apply (computeCholesky_exact eps zero infty n s l0 l1 Hm zero_nn W HE SY)|].
  intros [r s1] (P & Q). specialize (Q (strong_posdef n Hm lam LA SG)). subst r. destruct (P eq_refl) as ((R & LR & E1) & C).
  change (SUCCESSFUL_RETURN =r? RET_HESSIAN_NOT_SPD) with false. change (SUCCESSFUL_RETURN =r? SUCCESSFUL_RETURN) with true. cbn [negb wp].
  split; [reflexivity|]. exists R. subst s1. split; [reflexivity|].
  assert (W1 : qwf n (set_q_haveChol (N := N) true (set_q_R (N := N) R s)) l0 l1) by (apply (wf_same n (set_q_R (N := N) R s)); [apply wf_set_R; auto|samearr]).
  constructor; auto.
Qed.

(** ** Far bounds *)
Definition bo (b : option arr) (i : Z) : option R := match b with Some a => Some (zn 0 a i) | None => None end.
Lemma extendFar_exact n lbn ubn (far : R) : (0 <= n)%Z -> olen (N := N) n lbn -> olen (N := N) n ubn ->
  wp (extendFar (N := N) lbn ubn n far) (fun far' => far <= far' /\ (far < infty -> far' < infty) /\
    forall i, (0 <= i < n)%Z -> (forall l, bo lbn i = Some l -> - infty < l -> - far' <= l) /\ (forall u, bo ubn i = Some u -> u < infty -> u <= far')).
Proof.
  intros Hn Ll Lu. unfold extendFar. apply wp_bind.
  apply wp_mono with (P := fun f : R => far <= f /\ (far < infty -> f < infty) /\ forall i, (0 <= i < n)%Z -> forall u, bo ubn i = Some u -> u < infty -> u <= f).
  { destruct ubn as [un|]; [|cbn; split; [lra|split; [auto|discriminate]]]. cbn in Lu.
    apply wp_for_up with (I := fun k (f : R) => far <= f /\ (far < infty -> f < infty) /\ forall i, (0 <= i < k)%Z -> zn 0 un i < infty -> zn 0 un i <= f).
    - lia.
    - split; [lra|]. split; [auto|intros; lia].
    - intros k f Hk (A & B & C). rdx. rnum. unfold Rltb at 1. destruct (Rlt_dec (zn 0 un k) infty) as [F|F]; cbn [andb wp].
      + unfold Rltb. destruct (Rlt_dec f (zn 0 un k)) as [G|G]; cbn [wp].
        * split; [lra|]. split; [auto|]. intros i Hi Fi. destruct (Z.eq_dec i k) as [->|]; [lra|]. specialize (C i ltac:(lia) Fi). lra.
        * split; [lra|]. split; [auto|]. intros i Hi Fi. destruct (Z.eq_dec i k) as [->|]; [lra|]. exact (C i ltac:(lia) Fi).
      + split; [lra|]. split; [auto|]. intros i Hi Fi. destruct (Z.eq_dec i k) as [->|]; [lra|]. exact (C i ltac:(lia) Fi).
    - intros f (A & B & C). split; [lra|]. split; [auto|]. intros i Hi u [= <-]. now apply C. }
  intros f1 (A1 & B1 & C1).
  destruct lbn as [ln|]; [|cbn; split; [lra|]; split; [auto|]; intros i Hi; split; [discriminate|eauto]]. cbn in Ll.
  apply wp_for_up with (I := fun k (f : R) => f1 <= f /\ (far < infty -> f < infty) /\ forall i, (0 <= i < k)%Z -> - infty < zn 0 ln i -> - f <= zn 0 ln i).
  + lia.
  + split; [lra|]. split; [auto|intros; lia].
  + intros k f Hk (A & B & C). rdx. rnum. unfold Rltb at 1. destruct (Rlt_dec (- infty) (zn 0 ln k)) as [F|F]; cbn [andb wp].
    * unfold Rltb. destruct (Rlt_dec (zn 0 ln k) (- f)) as [G|G]; cbn [wp].
      -- split; [lra|]. split; [intros; lra|]. intros i Hi Fi. destruct (Z.eq_dec i k) as [->|]; [lra|]. specialize (C i ltac:(lia) Fi). lra.
      -- split; [lra|]. split; [auto|]. intros i Hi Fi. destruct (Z.eq_dec i k) as [->|]; [lra|]. exact (C i ltac:(lia) Fi).
    * split; [lra|]. split; [auto|]. intros i Hi Fi. destruct (Z.eq_dec i k) as [->|]; [lra|]. exact (C i ltac:(lia) Fi).
  + intros f2 (A2 & B2 & C2). cbn [wp]. split; [lra|]. split; [auto|]. intros i Hi. split; [intros l [= <-]; now apply C2|]. intros u E Fi. specialize (C1 i Hi u E Fi). lra.
Qed.

Definition farv (s : qpb N) (n : Z) (far : R) (i : Z) : R :=
  if o_enableRamping (q_opts s) then
    let t : R := IZR (Z.rem (i + q_rampOffset s) n) / IZR (n - 1) in far * (1 + (1 - t) * q_ramp0 s + t * q_ramp1 s)
  else far.
Lemma farv_ge (s : qpb N) n far i : ramps eps zero infty n s -> 0 <= far -> (0 <= i < n)%Z -> far <= farv s n far i.
Proof.
  intros RA F Hi. unfold farv. destruct (o_enableRamping (q_opts s)) eqn:E; [|lra]. destruct (RA E) as (R1 & R2 & R3 & R4). cbv zeta.
  pose proof (ramp_weight eps zero infty s n i R1 ltac:(lia) R2) as T. set (t := _ / _) in *.
  assert (0 <= (1 - t) * q_ramp0 s) by (apply Rmult_le_pos; [lra|exact R3]). assert (0 <= t * q_ramp1 s) by (apply Rmult_le_pos; [lra|exact R4]).
  assert (0 <= far * ((1 - t) * q_ramp0 s + t * q_ramp1 s)) by (apply Rmult_le_pos; lra). lra.
Qed.
Lemma updateFar_exact n (s : qpb N) l0 l1 far (lbn ubn : option arr) (lf uf : arr) : qwf n s l0 l1 -> olen (N := N) n lbn -> olen (N := N) n ubn -> zlen lf = n -> zlen uf = n ->
  wp (updateFarBounds (N := N) far n lbn ubn s lf uf) (fun '(lf', uf') => zlen lf' = n /\ zlen uf' = n /\ forall i, (0 <= i < n)%Z ->
    zn 0 lf' i = (match lbn with None => - farv s n far i | Some a => Rmax (- farv s n far i) (zn 0 a i) end) /\
    zn 0 uf' i = (match ubn with None => farv s n far i | Some a => Rmin (farv s n far i) (zn 0 a i) end)).
Proof.
  intros W Hl Hu L1 L2. unfold updateFarBounds. rewrite (w_nv _ _ _ _ W). pose proof (w_n _ _ _ _ W) as Hn. rcar.
  apply wp_for_up with (I := fun k '(lf', uf') => zlen (lf' : arr) = n /\ zlen (uf' : arr) = n /\ forall i, (0 <= i < k)%Z ->
    zn 0 lf' i = (match lbn with None => - farv s n far i | Some a => Rmax (- farv s n far i) (zn 0 a i) end) /\
    zn 0 uf' i = (match ubn with None => farv s n far i | Some a => Rmin (farv s n far i) (zn 0 a i) end)).
  - lia.
  - split; [exact L1|]. split; [exact L2|intros; lia].
  - intros k [a b] Hk (La & Lb & V). cbv zeta.
    assert (EV : (if o_enableRamping (q_opts s) then far * (1 + (1 - Rlit (Z.rem (k + q_rampOffset s) n) 0 / Rlit (n - 1) 0) * q_ramp0 s + Rlit (Z.rem (k + q_rampOffset s) n) 0 / Rlit (n - 1) 0 * q_ramp1 s) else far) = farv s n far k).
    { unfold farv. destruct (o_enableRamping (q_opts s)); [|reflexivity]. unfold Rlit. cbn [Z.leb Z.compare Z.pow]. now rewrite !Z.mul_1_r. }
    apply wp_bind. eapply wp_mono with (P := fun l : R => l = match lbn with None => - farv s n far k | Some a => Rmax (- farv s n far k) (zn 0 a k) end).
    { destruct lbn as [w|]; unfold rampT; [unfold olen in Hl; rcar; rdx; cbn [wp]; rewrite QPBX5.getMax_R|cbn [wp]]; rnum; change (Rlit 1 0) with 1; rewrite EV; reflexivity. }
    intros l ->. rewrite wr_ok by (rcar; lia). cbn [bind].
    apply wp_bind. eapply wp_mono with (P := fun u : R => u = match ubn with None => farv s n far k | Some a => Rmin (farv s n far k) (zn 0 a k) end).
    { destruct ubn as [w|]; unfold rampT; [unfold olen in Hu; rcar; rdx; cbn [wp]; rewrite QPBX5.getMin_R|cbn [wp]]; rnum; change (Rlit 1 0) with 1; rewrite EV; reflexivity. }
    intros u ->. rewrite wr_ok by (rcar; lia). cbn [bind wp]. rewrite !zlen_zupd. split; [exact La|]. split; [exact Lb|].
    intros i Hi. rewrite !zn_zupd by (rcar; lia). destruct (Z.eqb_spec i k) as [->|]; [split; reflexivity|]. apply V. lia.
  - intros [a b]; auto.
Qed.
Definition spread (s : qpb N) : R := if o_enableRamping (q_opts s) then 1 + q_ramp0 s + q_ramp1 s else 1.
Lemma farv_le (s : qpb N) n far i : ramps eps zero infty n s -> 0 <= far -> (0 <= i < n)%Z -> farv s n far i <= far * spread s.
Proof.
  intros RA F Hi. unfold farv, spread. destruct (o_enableRamping (q_opts s)) eqn:E; [|lra]. destruct (RA E) as (R1 & R2 & R3 & R4). cbv zeta.
  pose proof (ramp_weight eps zero infty s n i R1 ltac:(lia) R2) as T. set (t := _ / _) in *. rcar.
  apply Rmult_le_compat_l; [exact F|]. assert (0 <= t * q_ramp0 s) by (apply Rmult_le_pos; [lra|exact R3]). assert (0 <= (1 - t) * q_ramp1 s) by (apply Rmult_le_pos; [lra|exact R4]). lra.
Qed.
Lemma spread_pos n s : ramps eps zero infty n s -> 1 <= spread s.
Proof. intros RA. unfold spread. destruct (o_enableRamping (q_opts s)) eqn:E; [|lra]. destruct (RA E) as (_ & _ & R3 & R4). rcar. lra. Qed.

(** a requested bound is passed on, or replaced by a far bound (at least [F0] away
    from the origin) that x stays clear of *)
Definition clear (F0 c b x : R) : Prop := F0 <= Rabs b /\ c * Rabs b <= Rabs (b - x).
Definition low_ok (F0 c : R) (l : option R) (b x : R) : Prop :=
  match l with Some w => b = w \/ (w <= - infty /\ b <= 0 /\ clear F0 c b x) | None => b <= 0 /\ clear F0 c b x end.
Definition up_ok (F0 c : R) (u : option R) (b x : R) : Prop :=
  match u with Some w => b = w \/ (infty <= w /\ 0 <= b /\ clear F0 c b x) | None => 0 <= b /\ clear F0 c b x end.

Lemma countFar_exact n (s : qpb N) l0 l1 lbn ubn (lf uf : arr) tol : qwf n s l0 l1 -> olen (N := N) n lbn -> olen (N := N) n ubn -> zlen lf = n -> zlen uf = n ->
  wp (countActiveFar (N := N) lbn ubn lf uf tol s) (fun k => (0 <= k)%Z /\ (k = 0%Z -> forall i, (0 <= i < n)%Z ->
    ((forall l, bo lbn i = Some l -> l < zn 0 lf i) -> tol <= Rabs (zn 0 lf i - xv s i)) /\
    ((forall u, bo ubn i = Some u -> zn 0 uf i < u) -> tol <= Rabs (zn 0 uf i - xv s i)))).
Proof.
  intros W Hl Hu L1 L2. unfold countActiveFar. rewrite (w_nv _ _ _ _ W). pose proof (w_n _ _ _ _ W) as Hn. pose proof (w_x _ _ _ _ W) as Lx. rcar.
  apply wp_for_up with (I := fun k c => (0 <= c)%Z /\ (c = 0%Z -> forall i, (0 <= i < k)%Z ->
    ((forall l, bo lbn i = Some l -> l < zn 0 lf i) -> tol <= Rabs (zn 0 lf i - xv s i)) /\
    ((forall u, bo ubn i = Some u -> zn 0 uf i < u) -> tol <= Rabs (zn 0 uf i - xv s i)))); [lia|split; [lia|intros; lia]| |auto].
  intros k c Hk (C0 & C). rdx. rdx. rdx.
  apply wp_bind. eapply wp_mono with (P := fun a : bool => (forall l, bo lbn k = Some l -> l < zn 0 lf k) -> a = true).
  { destruct lbn as [w|]; [|cbn; auto]. cbn in Hl. rdx. cbn [wp bo]. intros V. specialize (V _ eq_refl). rnum. now apply Rltb_true. }
  intros a Ha. apply wp_bind. eapply wp_mono with (P := fun b : bool => (forall u, bo ubn k = Some u -> zn 0 uf k < u) -> b = true).
  { destruct ubn as [w|]; [|cbn; auto]. cbn in Hu. rdx. cbn [wp bo]. intros V. specialize (V _ eq_refl). rnum. now apply Rltb_true. }
  intros b Hb. cbv zeta. rnum. cbn [wp]. fold (xv s k).
  set (c1 := if a && Rltb (Rabs (zn 0 lf k - xv s k)) tol then (c + 1)%Z else c).
  assert (H1 : (0 <= c1)%Z /\ (c1 = 0%Z -> c = 0%Z /\ ((forall l, bo lbn k = Some l -> l < zn 0 lf k) -> tol <= Rabs (zn 0 lf k - xv s k)))).
  { unfold c1. destruct a; cbn [andb]; [destruct (Rltb_spec (Rabs (zn 0 lf k - xv s k)) tol); (split; [lia|]); intros E; try lia; split; [exact E|intros; lra]|].
    split; [lia|]. intros E. split; [exact E|]. intros V. specialize (Ha V). discriminate Ha. }
  set (c2 := if b && Rltb (Rabs (zn 0 uf k - xv s k)) tol then (c1 + 1)%Z else c1).
  assert (H2 : (0 <= c2)%Z /\ (c2 = 0%Z -> c1 = 0%Z /\ ((forall u, bo ubn k = Some u -> zn 0 uf k < u) -> tol <= Rabs (zn 0 uf k - xv s k)))).
  { unfold c2. destruct b; cbn [andb]; [destruct (Rltb_spec (Rabs (zn 0 uf k - xv s k)) tol); (split; [lia|]); intros E; try lia; split; [exact E|intros; lra]|].
    split; [lia|]. intros E. split; [exact E|]. intros V. specialize (Hb V). discriminate Hb. }
  clearbody c1 c2. destruct H1 as (P1 & Q1), H2 as (P2 & Q2). split; [exact P2|]. intros E i Hi. destruct (Q2 E) as (E1 & K2), (Q1 (proj1 (Q2 E))) as (E0 & K1).
  destruct (Z.eq_dec i k) as [->|]; [split; assumption|]. apply (C E0). lia.
Qed.

Lemma opt_mono d1 d2 n (s : qpb N) Hm : d1 <= d2 -> opt d1 n s Hm -> opt d2 n s Hm.
Proof.
  intros L (S & O). split; [exact S|]. intros i Hi. specialize (O i Hi). unfold opt_bd in *. destruct (sv s i); try contradiction; lra.
Qed.
Lemma started_mono d1 d2 n Hm (s : qpb N) : d1 <= d2 -> started d1 n Hm s -> started d2 n Hm s.
Proof. intros L (A & O). split; [exact A|]. exact (opt_mono d1 d2 n s Hm L O). Qed.

Lemma consistent_exact n (s : qpb N) l0 l1 lbn ubn : qwf n s l0 l1 -> olen (N := N) n lbn -> olen (N := N) n ubn ->
  wp (areBoundsConsistent (N := N) lbn ubn s) (fun r => (r = SUCCESSFUL_RETURN /\ forall i, (0 <= i < n)%Z -> forall l u, bo lbn i = Some l -> bo ubn i = Some u -> l <= u + eps) \/
    (r <> SUCCESSFUL_RETURN /\ exists i l u, (0 <= i < n)%Z /\ bo lbn i = Some l /\ bo ubn i = Some u /\ u + eps < l)).
Proof.
  intros W Ll Lu. unfold areBoundsConsistent. destruct lbn as [ln|]; [|cbn; left; split; [reflexivity|discriminate]].
  destruct ubn as [un|]; [|cbn; left; split; [reflexivity|discriminate]]. cbn in Ll, Lu.
  rewrite (w_nv _ _ _ _ W). pose proof (w_n _ _ _ _ W) as Hn. apply wp_bind. rcar.
  apply wp_forb_up with (I := fun k _ => forall i, (0 <= i < k)%Z -> zn 0 ln i <= zn 0 un i + eps) (J := fun _ => exists i, (0 <= i < n)%Z /\ zn 0 un i + eps < zn 0 ln i); [lia|intros; lia| | |].
  - intros k [] Hk Ik. rdx. rdx. rnum. destruct (Rltb_spec (zn 0 un k + eps) (zn 0 ln k)) as [X|X]; cbn [wp]; [now exists k|].
    intros i Hi. destruct (Z.eq_dec i k) as [->|]; [lra|apply Ik; lia].
  - intros [] H. cbn [wp]. left. split; [reflexivity|]. intros i Hi l u [= <-] [= <-]. now apply H.
  - intros [] (i & Hi & H). cbn [wp]. right. split; [discriminate|]. exists i, (zn 0 ln i), (zn 0 un i). repeat split; auto; lia.
Qed.

(** ** Hotstart *)
Definition settled_run (n : Z) (Hm : Z -> Z -> R) (D F0 c tol : R) (gn : arr) (lbn ubn : option arr) (s' : qpb N) : Prop :=
  q_infeasible s' = false /\ q_status s' = QPS_SOLVED /\ started D n Hm s' /\
  exists lf uf : arr, arrived n gn (Some lf) (Some uf) tol s' /\
    (o_enableFarBounds (q_opts s') = false -> lbn = Some lf /\ ubn = Some uf) /\
    forall i, (0 <= i < n)%Z -> low_ok F0 c (bo lbn i) (zn 0 lf i) (xv s' i) /\ up_ok F0 c (bo ubn i) (zn 0 uf i) (xv s' i).

(** the far bounds in use *)
Record clipped (n : Z) (s : qpb N) (F0 far : R) (lbn ubn : option arr) (lf uf : arr) : Prop := {
  cl_len : zlen lf = n /\ zlen uf = n;
  cl_far : 0 <= F0 <= far /\ far < infty;
  cl_val : exists v, forall i, (0 <= i < n)%Z -> far <= v i <= far * spread s /\ (o_enableRamping (q_opts s) = false -> v i = far) /\
    zn 0 lf i = (match bo lbn i with None => - v i | Some a => Rmax (- v i) a end) /\
    zn 0 uf i = (match bo ubn i with None => v i | Some a => Rmin (v i) a end);
  cl_ext : forall i, (0 <= i < n)%Z -> (forall l, bo lbn i = Some l -> - infty < l -> - far <= l) /\ (forall u, bo ubn i = Some u -> u < infty -> u <= far) }.
(** what is asked of the requested bounds when far bounds are enabled: a one-sided bound is not beyond the initial far bound, and with
    ramping some bound is finite *)
Definition uncrossed (n : Z) (lbn ubn : option arr) : Prop :=
  forall i, (0 <= i < n)%Z -> forall l u, bo lbn i = Some l -> bo ubn i = Some u -> l <= u + eps.
Record farable (n : Z) (o : options N) (F0 : R) (lbn ubn : option arr) : Prop := {
  fa_eq : o_enableEqualities o = false;
  fa_up : forall i, (0 <= i < n)%Z -> forall u, bo ubn i = Some u -> u < infty -> - F0 <= u \/ exists l, bo lbn i = Some l /\ - infty < l;
  fa_low : forall i, (0 <= i < n)%Z -> forall l, bo lbn i = Some l -> - infty < l -> l <= F0 \/ exists u, bo ubn i = Some u /\ u < infty;
  fa_ramp : o_enableRamping o = false \/
    ((exists i l, (0 <= i < n)%Z /\ bo lbn i = Some l /\ - infty < l) /\ (exists i u, (0 <= i < n)%Z /\ bo ubn i = Some u /\ u < infty)) }.

Lemma clipped_two n (s : qpb N) F0 far lbn ubn (lf uf : arr) : (0 < n)%Z -> o_enableFarBounds (q_opts s) = true -> clipped n s F0 far lbn ubn lf uf -> farable n (q_opts s) F0 lbn ubn -> uncrossed n lbn ubn ->
  two_sided n (q_opts s) lf uf /\ forall i, (0 <= i < n)%Z -> zn 0 lf i <= zn 0 uf i + eps.
Proof.
  intros Hn FB [(L1 & L2) (F1 & F2) (v & V) EX] [EQ UP LO RA] CO. split.
  - split; [exact EQ|]. split; [now left|]. destruct RA as [RA|((i & l & Hi & E & X) & (k & u & Hk & E' & Y))].
    + split; exists 0%Z; (split; [lia|]); destruct (V 0%Z ltac:(lia)) as (_ & VF & V1 & V2); specialize (VF RA).
      * rewrite V1, VF. destruct (bo lbn 0); [pose proof (Rmax_l (- far) r)|]; lra.
      * rewrite V2, VF. destruct (bo ubn 0); [pose proof (Rmin_l far r)|]; lra.
    + split; [exists i|exists k]; (split; [assumption|]).
      * destruct (V i Hi) as (_ & _ & -> & _). rewrite E. pose proof (Rmax_r (- v i) l). lra.
      * destruct (V k Hk) as (_ & _ & _ & ->). rewrite E'. pose proof (Rmin_r (v k) u). lra.
  - intros i Hi. destruct (V i Hi) as (VB & _ & -> & ->). specialize (CO i Hi). specialize (UP i Hi). specialize (LO i Hi). destruct (EX i Hi) as (X1 & X2).
    assert (A : forall u, bo ubn i = Some u -> - v i <= u + eps).
    { intros u E. destruct (Rlt_dec u infty) as [Fu|Fu]; [|lra]. destruct (UP u E Fu) as [X|(l & E' & Fl)]; [lra|]. specialize (X1 l E' Fl). specialize (CO l u E' E). lra. }
    assert (B : forall l, bo lbn i = Some l -> l <= v i + eps).
    { intros l E. destruct (Rlt_dec (- infty) l) as [Fl|Fl]; [|lra]. destruct (LO l E Fl) as [X|(u & E' & Fu)]; [lra|]. specialize (X2 u E' Fu). specialize (CO l u E E'). lra. }
    destruct (bo lbn i) as [l|], (bo ubn i) as [u|].
    + specialize (CO l u eq_refl eq_refl). specialize (A u eq_refl). specialize (B l eq_refl).
      apply Rmax_lub; unfold Rmin; destruct (Rle_dec (v i) u); lra.
    + specialize (B l eq_refl). apply Rmax_lub; lra.
    + specialize (A u eq_refl). unfold Rmin; destruct (Rle_dec (v i) u); lra.
    + lra.
Qed.

Lemma spread_held s s' : held s s' -> spread s' = spread s.
Proof. intros []. unfold spread. now rewrite h_opts, h_r0, h_r1. Qed.
Lemma usingReg_held s s' : held s s' -> usingReg s' = usingReg s.
Proof. intros []. unfold usingReg. now rewrite h_reg. Qed.
Lemma started_held n Hm d (s s' : qpb N) : started d n Hm s -> held s s' -> (forall l0 l1, qwf n s l0 l1 -> qwf n s' l0 l1) -> q_R s' = q_R s -> q_bounds s' = q_bounds s ->
  q_x s' = q_x s -> q_y s' = q_y s -> q_g s' = q_g s -> q_lb s' = q_lb s -> q_ub s' = q_ub s -> started d n Hm s'.
Proof.
  intros ((l0 & l1 & L) & (S & O)) H W ER EB Ex Ey Eg El Eu. split.
  - exists l0, l1. apply (loaded_set eps zero infty n Hm s); auto; [apply W; apply L|now rewrite EB].
  - split.
    + intros i Hi. specialize (S i Hi). unfold QPBX5.xv, QPBX5.yv, QPBX5.gv in *. now rewrite Ex, Ey, Eg.
    + intros i Hi. specialize (O i Hi). unfold QPBX5.xv, QPBX5.yv, QPBX5.gv, QPBX5.lv, QPBX5.uv, QPBX5.sv in *. now rewrite Ex, Ey, El, Eu, EB.
Qed.
Lemma low_clear F0 c far sp v l x b : 0 <= F0 <= far -> 0 <= c -> 1 <= sp -> far <= v <= far * sp -> b = (match l with None => - v | Some a => Rmax (- v) a end) ->
  (forall w, l = Some w -> - infty < w -> - far <= w) -> ((forall w, l = Some w -> w < b) -> far * c <= Rabs (b - x)) -> low_ok F0 (c / sp) l b x.
Proof.
  intros HF Hc Hs Hv Hb Hx Ht.
  assert (K : b = - v -> far * c <= Rabs (b - x) -> b <= 0 /\ clear F0 (c / sp) b x).
  { intros -> T. split; [lra|]. unfold clear. rewrite Rabs_Ropp, (Rabs_pos_eq v) by lra. split; [lra|].
    apply Rle_trans with (far * c); [|exact T]. apply Rmult_le_reg_r with sp; [lra|]. replace (c / sp * v * sp) with (c * v) by (field; lra). nra. }
  destruct l as [w|]; cbn [low_ok].
  - unfold Rmax in Hb. destruct (Rle_dec (- v) w) as [X|X]; [now left|]. right. split; [destruct (Rlt_dec (- infty) w) as [Y|Y]; [specialize (Hx w eq_refl Y)|]; lra|]. apply K; [exact Hb|]. apply Ht. intros ? [= <-]. lra.
  - apply K; [exact Hb|]. apply Ht. discriminate.
Qed.
Lemma up_clear F0 c far sp v u x b : 0 <= F0 <= far -> 0 <= c -> 1 <= sp -> far <= v <= far * sp -> b = (match u with None => v | Some a => Rmin v a end) ->
  (forall w, u = Some w -> w < infty -> w <= far) -> ((forall w, u = Some w -> b < w) -> far * c <= Rabs (b - x)) -> up_ok F0 (c / sp) u b x.
Proof.
  intros HF Hc Hs Hv Hb Hx Ht.
  assert (K : b = v -> far * c <= Rabs (b - x) -> 0 <= b /\ clear F0 (c / sp) b x).
  { intros -> T. split; [lra|]. unfold clear. rewrite (Rabs_pos_eq v) by lra. split; [lra|].
    apply Rle_trans with (far * c); [|exact T]. apply Rmult_le_reg_r with sp; [lra|]. replace (c / sp * v * sp) with (c * v) by (field; lra). nra. }
  destruct u as [w|]; cbn [up_ok].
  - unfold Rmin in Hb. destruct (Rle_dec v w) as [X|X]; [|now left]. destruct (Req_dec v w) as [E|E]; [left; lra|]. right. split; [destruct (Rlt_dec w infty) as [Y|Y]; [specialize (Hx w eq_refl Y)|]; lra|]. apply K; [exact Hb|]. apply Ht. intros ? [= <-]. lra.
  - apply K; [exact Hb|]. apply Ht. discriminate.
Qed.

Lemma farLoop_exact n Hm lam gn lbn ubn nWSR e F0 : symm_on n Hm -> strong n Hm lam -> zero * zero < lam ->
  (n <= zlen gn)%Z -> olen (N := N) n lbn -> olen (N := N) n ubn -> eps <= e -> uncrossed n lbn ubn ->
  forall fuel (s : qpb N) p far (lf uf : arr) del k s',
  started del n Hm s -> accepted (q_status s) -> usingReg s = false -> o_enableFarBounds (q_opts s) = true -> 1 <= o_growFarBounds (q_opts s) -> 0 <= o_boundTolerance (q_opts s) ->
  clipped n s F0 far lbn ubn lf uf -> farable n (q_opts s) F0 lbn ubn ->
  o_epsDen (q_opts s) <= e -> 0 <= del -> del + IZR (Z.of_nat fuel - 1) * e <= - o_epsNum (q_opts s) ->
  farLoop (N := N) junk cpu fuel gn lbn ubn nWSR p far lf uf s = Ok (SUCCESSFUL_RETURN, k, s') ->
  held s s' /\ settled_run n Hm (del + IZR (Z.of_nat fuel) * e) F0 (o_boundTolerance (q_opts s) / spread s) (o_terminationTolerance (q_opts s)) gn lbn ubn s'.
Proof.
  intros SY SG LA Hg Hl Hu E2 CO. induction fuel as [|f IH]; intros s p far lf uf del k s' ST AC RG FB GR BT CL FA E1 D0 DF E; [discriminate E|].
  cbn [farLoop] in E. unfold solveRegularisedQP in E. rewrite RG in E. cbn [negb] in E.
  rewrite Nat2Z.inj_succ in *. replace (Z.succ (Z.of_nat f) - 1)%Z with (Z.of_nat f) in * by lia. rewrite succ_IZR.
  assert (Hf : 0 <= IZR (Z.of_nat f)) by (apply IZR_le; lia). assert (He : 0 <= e) by lra.
  assert (Hfe : 0 <= IZR (Z.of_nat f) * e) by (apply Rmult_le_pos; lra).
  assert (Hn : (0 < n)%Z) by (destruct ST as ((l0 & l1 & L) & _); exact (w_n _ _ _ _ (lo_wf _ _ _ _ _ _ _ _ L))).
  destruct (clipped_two n s F0 far lbn ubn lf uf Hn FB CL FA CO) as (TS & CB). pose proof (cl_len _ _ _ _ _ _ _ _ CL) as (Lf & Uf).
  destruct (wp_inv _ _ (solveQP_exact eps zero infty zero_nn eps_nn junk J n Hm lam cpu s gn lf uf nWSR p del e SY SG LA ST AC Hg ltac:(rcar; lia) ltac:(rcar; lia) TS CB E1 E2 ltac:(lra)))
    as (((r, k1), s1) & Eq & P1 & P2 & IN & _).
  match type of E with bind ?m _ = _ => change m with (solveQP (N := N) junk cpu gn (Some lf) (Some uf) nWSR p s) in E end.
  rewrite Eq in E. cbn [bind] in E. clear Eq. rewrite IN in E.
  destruct (is_qps (q_status s1) QPS_SOLVED) eqn:QS.
  2:{ injection E as -> -> ->. destruct (P1 eq_refl) as (X & _). rewrite X in QS. discriminate QS. }
  assert (QS' : q_status s1 = QPS_SOLVED) by (destruct (q_status s1); discriminate QS || reflexivity).
  assert (HS : held s s1 /\ started (del + e) n Hm s1).
  { destruct (rv_eq_dec r SUCCESSFUL_RETURN) as [Er|Er]; [destruct (P1 Er) as (_ & A & B & _); auto|]. destruct (P2 Er QS') as (A & B). split; [exact A|]. apply started_mono with del; [lra|exact B]. }
  destruct HS as (HE & ST1). pose proof (h_opts _ _ _ _ _ HE) as EO. rewrite EO in E.
  destruct ST1 as ((m0 & m1 & LO1) & O1). pose proof (lo_wf _ _ _ _ _ _ _ _ LO1) as W1.
  assert (FB' : (far : R) * o_growFarBounds (q_opts s) / o_growFarBounds (q_opts s) * o_boundTolerance (q_opts s) = far * o_boundTolerance (q_opts s)) by (rcar; field; lra).
  assert (RA1 : ramps eps zero infty n s1) by apply LO1.
  pose proof (spread_held _ _ HE) as SP. pose proof (spread_pos n s1 RA1) as SP1.
  match type of E with context [countActiveFar lbn ubn lf uf ?t s1] => set (tt' := t) in E end.
  assert (ET : tt' = far * o_boundTolerance (q_opts s)) by exact FB'. clearbody tt'. subst tt'.
  destruct (wp_inv _ _ (countFar_exact n s1 m0 m1 lbn ubn lf uf (far * o_boundTolerance (q_opts s)) W1 Hl Hu Lf Uf)) as (cn & Ec & C0 & C).
  rewrite Ec in E. cbn [bind] in E. destruct (Z.eqb_spec cn 0) as [Z0|Z0].
  - injection E as -> -> ->. destruct (P1 eq_refl) as (_ & _ & ST' & AR). split; [exact HE|]. split; [exact IN|]. split; [exact QS'|].
    split; [apply started_mono with (del + e); [lra|exact ST']|]. exists lf, uf. split; [exact AR|]. split; [rewrite EO, FB; discriminate|]. intros i Hi.
    destruct CL as [_ (F1 & F2) (v & V) EX]. destruct (V i Hi) as (VB & _ & V1 & V2). destruct (C Z0 i Hi) as (C1 & C2). rewrite SP in SP1. split.
    + exact (low_clear F0 _ far (spread s) (v i) (bo lbn i) (xv s' i) _ F1 BT SP1 VB V1 (proj1 (EX i Hi)) C1).
    + exact (up_clear F0 _ far (spread s) (v i) (bo ubn i) (xv s' i) _ F1 BT SP1 VB V2 (proj2 (EX i Hi)) C2).
  - match type of E with context [if ?b then Ok (RET_HOTSTART_STOPPED_UNBOUNDEDNESS, _, _) else _] => change b with (Rleb infty (far * o_growFarBounds (q_opts s))) in E end.
    destruct (Rleb_spec infty (far * o_growFarBounds (q_opts s))) as [BI|BI]; [discriminate E|].
    set (s2 := set_q_status (N := N) QPS_HOMOTOPYQPSOLVED s1) in *. assert (EN : nV s2 = n) by exact (w_nv _ _ _ _ W1). rewrite EN in E.
    assert (W2 : qwf n s2 m0 m1) by (apply (wf_same n s1); [exact W1|samearr]).
    destruct (wp_inv _ _ (updateFar_exact n s2 m0 m1 (far * o_growFarBounds (q_opts s)) lbn ubn lf uf W2 Hl Hu Lf Uf)) as ((lf2, uf2) & Eu & Lf2 & Uf2 & V2).
    match type of E with bind ?m _ = _ => change m with (updateFarBounds (N := N) (far * o_growFarBounds (q_opts s)) n lbn ubn s2 lf uf) in E end.
    rewrite Eu in E. cbn [bind] in E.
    set (s3 := set_q_rampOffset (N := N) (q_rampOffset s2 + 1) s2) in *.
    assert (H3 : held s s3). { apply (held_trans _ _ _ s s1); [exact HE|]. constructor; try reflexivity; try (now left); cbn; lia. }
    assert (G : 1 * far <= far * o_growFarBounds (q_opts s)). { destruct CL as [_ (F1 & _) _ _]. rewrite (Rmult_comm far). apply Rmult_le_compat_r; [lra|exact GR]. }
    assert (O3 : q_opts s3 = q_opts s) by exact EO.
    assert (GO : held s3 s' /\ settled_run n Hm (del + e + IZR (Z.of_nat f) * e) F0 (o_boundTolerance (q_opts s3) / spread s3) (o_terminationTolerance (q_opts s3)) gn lbn ubn s').
    { apply (IH s3 k1 (far * o_growFarBounds (q_opts s)) lf2 uf2 (del + e) k s'); rewrite ?O3; auto.
      - apply (started_held n Hm (del + e) s1); try reflexivity; [split; [exists m0, m1; exact LO1|exact O1]|constructor; try reflexivity; try (now left); cbn; lia|].
        intros a b Wab. apply (wf_same n s1); [exact Wab|samearr].
      - unfold accepted. cbn. auto.
      - rewrite (usingReg_held s s3 H3). exact RG.
      - destruct CL as [_ (F1 & F2) _ EX]. constructor; auto; [split; lra| |].
        + exists (farv s2 n (far * o_growFarBounds (q_opts s))). intros i Hi.
          assert (RA2 : ramps eps zero infty n s2) by exact RA1.
          split; [split; [apply farv_ge; auto; lra|apply (farv_le s2); auto; lra]|]. destruct (V2 i Hi) as (A & B). split.
          * intros RF. unfold farv. rewrite O3 in RF. change (q_opts s2) with (q_opts s1). now rewrite EO, RF.
          * split; [destruct lbn; exact A|destruct ubn; exact B].
        + intros i Hi. destruct (EX i Hi) as (A & B). split; intros w Ew Fw; [specialize (A w Ew Fw)|specialize (B w Ew Fw)]; lra.
      - lra.
      - rewrite minus_IZR. lra. }
    destruct GO as (G1 & G2). split; [exact (held_trans _ _ _ s s3 s' H3 G1)|].
    rewrite (spread_held s s3 H3), O3 in G2. replace (del + (IZR (Z.of_nat f) + 1) * e) with (del + e + IZR (Z.of_nat f) * e) by ring. exact G2.
Qed.

(** options and bounds for which a hotstart is covered *)
Definition coverable (n : Z) (o : options N) (fuel : nat) (lbn ubn : option arr) (del e : R) : Prop :=
  o_epsDen o <= e /\ eps <= e /\ 0 <= del /\
  (o_enableFarBounds o = true -> 0 <= o_initialFarBounds o < infty /\ 1 <= o_growFarBounds o /\ 0 <= o_boundTolerance o /\
     farable n o (o_initialFarBounds o) lbn ubn /\ del + IZR (Z.of_nat fuel - 1) * e <= - o_epsNum o) /\
  (o_enableFarBounds o = false -> (exists ln un, lbn = Some ln /\ ubn = Some un /\ two_sided n o ln un) /\ del <= - o_epsNum o).
(** slack after the run: one unit of [e] for each round of far bounds *)
Definition slack (o : options N) (fuel : nat) (del e : R) : R := if o_enableFarBounds o then del + IZR (Z.of_nat fuel) * e else del + e.

Lemma hotstart_exact n Hm lam fuel (s : qpb N) l0 l1 (gn : arr) lbn ubn nWSR del e k s' : symm_on n Hm -> strong n Hm lam -> zero * zero < lam ->
  begun n Hm s l0 l1 -> opt del n s Hm -> accepted (q_status s) -> (n <= zlen gn)%Z -> olen (N := N) n lbn -> olen (N := N) n ubn ->
  coverable n (q_opts s) fuel lbn ubn del e ->
  hotstart (N := N) junk cpu fuel gn lbn ubn nWSR None s = Ok (SUCCESSFUL_RETURN, k, s') ->
  (~ uncrossed n lbn ubn /\ s' = set_q_infeasible true s) \/
  (uncrossed n lbn ubn /\ q_H s' = q_H s /\ q_opts s' = q_opts s /\ q_regVal s' = q_regVal s /\ hframe (q_htype s) (q_htype s') /\ q_haveChol s' = true /\
   settled_run n Hm (slack (q_opts s) fuel del e) (o_initialFarBounds (q_opts s)) (o_boundTolerance (q_opts s) / spread s) (o_terminationTolerance (q_opts s)) gn lbn ubn s').
Proof.
  intros SY SG LA B O A Hg Hl Hu (CE1 & CE2 & D0 & CF & CN) E. pose proof (be_wf _ _ _ _ _ B) as W. pose proof (w_n _ _ _ _ W) as Hn.
  unfold hotstart in E. rewrite (w_nv _ _ _ _ W) in E. destruct (Z.eqb_spec n 0); [lia|]. cbn [bind] in E.
  change (SUCCESSFUL_RETURN =r? SUCCESSFUL_RETURN) with true in E. cbn [negb] in E.
  destruct (wp_inv _ _ (consistent_exact n s l0 l1 lbn ubn W Hl Hu)) as (rc & Ec & C). rewrite Ec in E. cbn [bind] in E.
  destruct C as [(-> & CO)|(NC & i & l & u & Hi & El & Eu & X)].
  2:{ apply rv_eqb_neq in NC. rewrite NC in E. cbn [negb] in E. injection E as <- <-. left. split; [|reflexivity]. intros C. specialize (C i Hi l u El Eu). lra. }
  change (SUCCESSFUL_RETURN =r? SUCCESSFUL_RETURN) with true in E. cbn [negb] in E. right. split; [exact CO|].
  set (s1 := set_q_count (N := N) (q_count s + 1) s) in *.
  assert (W1 : qwf n s1 l0 l1) by (apply (wf_same n s); [exact W|samearr]).
  assert (B1 : begun n Hm s1 l0 l1) by (destruct B; constructor; auto).
  assert (LO : exists s2, (if q_haveChol s1 then Ok (SUCCESSFUL_RETURN, s1) else setupInitialCholesky (N := N) s1) = Ok (SUCCESSFUL_RETURN, s2) /\
    loaded n Hm s2 l0 l1 /\ opt del n s2 Hm /\ q_status s2 = q_status s /\ usingReg s2 = false /\
    q_H s2 = q_H s /\ q_opts s2 = q_opts s /\ q_regVal s2 = q_regVal s /\ q_htype s2 = q_htype s /\ q_haveChol s2 = true /\ spread s2 = spread s).
  { pose proof (be_reg _ _ _ _ _ B1) as RG. destruct (q_haveChol s1) eqn:HC.
    - exists s1. split; [reflexivity|]. split; [destruct B1; constructor; auto|]. repeat split; auto; apply O.
    - assert (P : 0 < lam) by (pose proof (Rle_0_sqr zero) as Q; unfold Rsqr in Q; lra).
      destruct (wp_inv _ _ (initialCholesky_exact n Hm lam s1 l0 l1 SY SG P B1 HC)) as ((r, s2) & Eq & -> & R0 & -> & L2). rewrite Eq.
      eexists. split; [reflexivity|]. split; [exact L2|]. repeat split; auto; apply O. }
  destruct LO as (s2 & E2 & L2 & O2 & Q2 & RG & K1 & K2 & K3 & K4 & K5 & K6).
  match type of E with bind ?m _ = _ => change m with (if q_haveChol s1 then Ok (SUCCESSFUL_RETURN, s1) else setupInitialCholesky (N := N) s1) in E end.
  rewrite E2 in E. cbn [bind] in E. change (SUCCESSFUL_RETURN =r? SUCCESSFUL_RETURN) with true in E. cbn [negb] in E.
  rewrite K2 in E. pose proof (lo_wf _ _ _ _ _ _ _ _ L2) as W2. rewrite (w_nv _ _ _ _ W2) in E. rewrite <- Q2 in A.
  assert (ST2 : started del n Hm s2) by (split; [exists l0, l1; exact L2|exact O2]).
  assert (FIN : forall D, held s2 s' -> settled_run n Hm D (o_initialFarBounds (q_opts s)) (o_boundTolerance (q_opts s) / spread s) (o_terminationTolerance (q_opts s)) gn lbn ubn s' -> D = slack (q_opts s) fuel del e ->
    q_H s' = q_H s /\ q_opts s' = q_opts s /\ q_regVal s' = q_regVal s /\ hframe (q_htype s) (q_htype s') /\ q_haveChol s' = true /\
    settled_run n Hm (slack (q_opts s) fuel del e) (o_initialFarBounds (q_opts s)) (o_boundTolerance (q_opts s) / spread s) (o_terminationTolerance (q_opts s)) gn lbn ubn s').
  { intros D [] SR <-. rewrite K4 in h_h. split; [congruence|]. split; [congruence|]. split; [congruence|]. split; [exact h_h|]. split; [congruence|exact SR]. }
  unfold slack in *. destruct (o_enableFarBounds (q_opts s)) eqn:FB; cbn [negb] in E.
  - destruct (CF eq_refl) as (F0 & GR & BT & FA & DF).
    destruct (wp_inv _ _ (extendFar_exact n lbn ubn (o_initialFarBounds (q_opts s)) ltac:(lia) Hl Hu)) as (far & Ef & X1 & X2 & X3).
    rewrite Ef in E. cbn [bind] in E. rcar.
    assert (LJ : zlen (junk n) = n) by (apply J; lia).
    destruct (wp_inv _ _ (updateFar_exact n s2 l0 l1 far lbn ubn (junk n) (junk n) W2 Hl Hu LJ LJ)) as ((lf, uf) & Eu & Lf & Uf & V).
    match type of E with bind ?m _ = _ => change m with (updateFarBounds (N := N) far n lbn ubn s2 (junk n) (junk n)) in E end.
    rewrite Eu in E. cbn [bind] in E.
    assert (CL : clipped n s2 (o_initialFarBounds (q_opts s)) far lbn ubn lf uf).
    { assert (RA : ramps eps zero infty n s2) by apply L2. constructor; auto; [split; [lra|apply X2; lra]|].
      exists (farv s2 n far). intros i Hi. split; [split; [apply farv_ge; auto; lra|apply farv_le; auto; lra]|]. destruct (V i Hi) as (Va & Vb). split.
      - intros RF. unfold farv. now rewrite RF.
      - split; [destruct lbn; exact Va|destruct ubn; exact Vb]. }
    destruct (farLoop_exact n Hm lam gn lbn ubn nWSR e (o_initialFarBounds (q_opts s)) SY SG LA Hg Hl Hu CE2 CO fuel s2 0%Z far lf uf del k s') as (G1 & G2); rewrite ?K2; auto.
    rewrite K2, K6 in G2. exact (FIN _ G1 G2 eq_refl).
  - destruct (CN eq_refl) as ((ln & un & -> & -> & TS) & DF). unfold solveRegularisedQP in E. rewrite RG in E. cbn [negb] in E.
    destruct (wp_inv _ _ (solveQP_exact eps zero infty zero_nn eps_nn junk J n Hm lam cpu s2 gn ln un nWSR 0 del e SY SG LA ST2 A Hg Hl Hu
      ltac:(rewrite K2; exact TS) ltac:(intros i Hi; exact (CO i Hi _ _ eq_refl eq_refl)) ltac:(rewrite K2; exact CE1) CE2 ltac:(rewrite K2; lra)))
      as (((r, k1), s3) & Eq & P1 & _ & IN & _).
    match type of E with ?m = _ => change m with (solveQP (N := N) junk cpu gn (Some ln) (Some un) nWSR 0 s2) in E end. rewrite Eq in E. injection E as -> -> ->.
    destruct (P1 eq_refl) as (Qs & HE & ST & AR). rewrite K2 in AR. refine (FIN (del + e) HE _ eq_refl).
    split; [exact IN|]. split; [exact Qs|]. split; [exact ST|]. exists ln, un. split; [exact AR|]. split; [auto|]. intros i Hi. split; left; reflexivity.
Qed.
End X10.
