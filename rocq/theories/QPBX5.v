(** Exact effect of the functions that make the current iterate optimal:
    auxiliary gradient and bounds, drift correction, ramping. *)
From Verif Require Import Base Types Num Options Indexlist IndexlistProofs Loops RSum LinSpec SafeLib SubjectTo SubjectToProofs SubjectToProofs2
  Flipper PropFlipper Matrices MatLib MatSafe LinAlg PropLinAlg QProblemB QPBSafe QPBSafe2 QPBX1 QPBX2 QPBX3 QPBX4.
Local Open Scope R_scope.

(** ** Loops that treat one index per round *)
Definition ok3 (n : Z) (a b c : list R) : Prop := zlen a = n /\ zlen b = n /\ zlen c = n.
Definition same_off (i : Z) (a a' : list R) : Prop := forall k, (0 <= k)%Z -> k <> i -> zn 0 a' k = zn 0 a k.

Lemma same_off_refl i a : same_off i a a.
Proof. intros k _ _. reflexivity. Qed.
Lemma same_off_upd i a v : (0 <= i < zlen a)%Z -> same_off i a (zupd a i v).
Proof. intros Hi k Hk Ne. apply zn_zupd_ne; auto; lia. Qed.

Lemma pointwise3 n (body : Z -> list R * list R * list R -> res (list R * list R * list R)) (lb ub y : list R)
  (Q : Z -> R -> R -> R -> R -> R -> R -> Prop) : (0 <= n)%Z -> ok3 n lb ub y ->
  (forall i (lb' ub' y' : list R), (0 <= i < n)%Z -> ok3 n lb' ub' y' ->
     wp (body i (lb', ub', y')) (fun '(lb2, ub2, y2) => ok3 n lb2 ub2 y2 /\ same_off i lb' lb2 /\ same_off i ub' ub2 /\ same_off i y' y2 /\
       Q i (zn 0 lb' i) (zn 0 ub' i) (zn 0 y' i) (zn 0 lb2 i) (zn 0 ub2 i) (zn 0 y2 i))) ->
  wp (for_up 0 n body (lb, ub, y)) (fun '(lb', ub', y') => ok3 n lb' ub' y' /\
    forall i, (0 <= i < n)%Z -> Q i (zn 0 lb i) (zn 0 ub i) (zn 0 y i) (zn 0 lb' i) (zn 0 ub' i) (zn 0 y' i)).
Proof.
  intros Hn L Body.
  apply wp_for_up with (I := fun k '(lb', ub', y') => ok3 n lb' ub' y' /\
    (forall i, (0 <= i < k)%Z -> Q i (zn 0 lb i) (zn 0 ub i) (zn 0 y i) (zn 0 lb' i) (zn 0 ub' i) (zn 0 y' i)) /\
    (forall i, (k <= i)%Z -> zn 0 lb' i = zn 0 lb i /\ zn 0 ub' i = zn 0 ub i /\ zn 0 y' i = zn 0 y i)).
  - exact Hn.
  - split; [exact L|]. split; [intros; lia|auto].
  - intros i ((lb', ub'), y') Hi (L' & Q1 & Q2). eapply wp_mono; [apply Body; [lia|exact L']|].
    intros ((lb2, ub2), y2) (L2 & O1 & O2 & O3 & Qi). split; [exact L2|]. destruct (Q2 i ltac:(lia)) as (E1 & E2 & E3). rewrite E1, E2, E3 in Qi. split.
    + intros k Hk. destruct (Z.eq_dec k i) as [->|]; [exact Qi|]. rewrite O1, O2, O3 by lia. apply Q1. lia.
    + intros k Hk. rewrite O1, O2, O3 by lia. apply Q2. lia.
  - intros ((lb', ub'), y') (L' & Q1 & _). split; [exact L'|exact Q1].
Qed.

Lemma pointwise1 n (body : Z -> list R -> res (list R)) (a : list R) (Q : Z -> R -> R -> Prop) m : (0 <= n <= m)%Z -> zlen a = m ->
  (forall i (a' : list R), (0 <= i < n)%Z -> zlen a' = m ->
     wp (body i a') (fun a2 => zlen a2 = m /\ same_off i a' a2 /\ Q i (zn 0 a' i) (zn 0 a2 i))) ->
  wp (for_up 0 n body a) (fun a' => zlen a' = m /\ (forall i, (0 <= i < n)%Z -> Q i (zn 0 a i) (zn 0 a' i)) /\ forall i, (n <= i)%Z -> zn 0 a' i = zn 0 a i).
Proof.
  intros Hn L Body.
  apply wp_for_up with (I := fun k a' => zlen a' = m /\ (forall i, (0 <= i < k)%Z -> Q i (zn 0 a i) (zn 0 a' i)) /\ (forall i, (k <= i)%Z -> zn 0 a' i = zn 0 a i)).
  - lia.
  - split; [exact L|]. split; [intros; lia|auto].
  - intros i a' Hi (L' & Q1 & Q2). eapply wp_mono; [apply Body; [lia|exact L']|]. intros a2 (L2 & O & Qi). rewrite (Q2 i ltac:(lia)) in Qi.
    split; [exact L2|]. split; intros k Hk.
    + destruct (Z.eq_dec k i) as [->|]; [exact Qi|]. rewrite O by lia. apply Q1. lia.
    + rewrite O by lia. apply Q2. lia.
  - auto.
Qed.

(** ** Optimality of an iterate, with slack *)
Definition opt_bd (del : R) (v : SubjectToStatus) (x l u y : R) : Prop :=
  match v with
  | ST_INACTIVE => y = 0 /\ l - del <= x <= u + del
  | ST_LOWER => l - del <= x <= l + del /\ x <= u + del /\ - del <= y
  | ST_UPPER => u - del <= x <= u + del /\ l - del <= x /\ y <= del
  | _ => False
  end.

Section X5.
Variables eps zero infty : R.
Notation N := (RNumT eps zero infty).
Notation arr := (list R).

Definition xv (s : qpb N) (i : Z) : R := zn 0 (q_x s) i.
Definition yv (s : qpb N) (i : Z) : R := zn 0 (q_y s) i.
Definition gv (s : qpb N) (i : Z) : R := zn 0 (q_g s) i.
Definition lv (s : qpb N) (i : Z) : R := zn 0 (q_lb s) i.
Definition uv (s : qpb N) (i : Z) : R := zn 0 (q_ub s) i.
Definition sv (s : qpb N) (i : Z) : SubjectToStatus := zs (st_status (q_bounds s)) i.
Definition tv (s : qpb N) (i : Z) : SubjectToType := zt (st_type (q_bounds s)) i.

Definition stationary (n : Z) (s : qpb N) (Hm : Z -> Z -> R) : Prop :=
  forall i, (0 <= i < n)%Z -> matvec n Hm (xv s) i + gv s i = yv s i.
Definition opt (del : R) (n : Z) (s : qpb N) (Hm : Z -> Z -> R) : Prop :=
  stationary n s Hm /\ forall i, (0 <= i < n)%Z -> opt_bd del (sv s i) (xv s i) (lv s i) (uv s i) (yv s i).

Lemma matvec_delta n c x i : (0 <= i < n)%Z -> matvec n (fun i j => c * delta i j) x i = c * x i.
Proof.
  intros Hi. unfold matvec. rewrite (rsum_ext 0 n _ (fun j => delta i j * (c * x j))) by (intros; ring). now rewrite rsum_pick.
Qed.

(** setupAuxiliaryQPgradient: g := y - H x *)
Lemma gradient_of n (s : qpb N) Hm : (0 <= n)%Z -> nV s = n -> zlen (q_g s) = n -> zlen (q_x s) = n -> (n <= zlen (q_y s))%Z -> hess eps zero infty n s Hm ->
  wp (setupAuxiliaryQPgradient s) (fun s' => exists g : arr, s' = set_q_g (N := N) g s /\ zlen g = n /\
    forall i, (0 <= i < n)%Z -> zn 0 g i = yv s i - matvec n Hm (xv s) i).
Proof.
  intros Hn EV Lg Lx Ly HE. unfold setupAuxiliaryQPgradient. rewrite EV.
  cut (forall m : res arr, wp m (fun g => zlen g = n /\ forall i, (0 <= i < n)%Z -> zn 0 g i = yv s i - matvec n Hm (xv s) i) ->
    wp (g <- m ;; Ok (set_q_g (N := N) g s)) (fun s' => exists g : arr, s' = set_q_g (N := N) g s /\ zlen g = n /\
    forall i, (0 <= i < n)%Z -> zn 0 g i = yv s i - matvec n Hm (xv s) i)).
  2:{ intros m Hm0. apply wp_bind. eapply wp_mono; [exact Hm0|]. intros g (A & B). apply wp_ok. eauto. }
  intros Cut. apply Cut. clear Cut.
  assert (Copy : wp (for_up 0 n (fun i g => a <- rd (q_y s) i ;; wr g i a) (q_g s)) (fun g : arr => zlen g = n /\ forall i, (0 <= i < n)%Z -> zn 0 g i = yv s i)).
  { eapply wp_mono; [apply (pointwise1 n _ (q_g s) (fun i _ v => v = yv s i) n)|]; [lia|exact Lg| |].
    - intros i a Hi La. rewrite (rd_ok 0) by (rcar; lia). cbn [bind]. rewrite wr_ok by (rcar; lia). apply wp_ok. rewrite zlen_zupd.
      split; [exact La|]. split; [apply same_off_upd; lia|]. rewrite zn_zupd_eq by lia. reflexivity.
    - intros a (A & B & _). auto. }
  unfold hess in HE.
  assert (Plain : (exists M, q_H s = Some M /\ mat_ok eps zero infty n M Hm) ->
    wp (g <- for_up 0 n (fun i g => a <- rd (q_y s) i ;; wr g i a) (q_g s) ;; M <- q_theH s ;; m_times M 1 nm1 (q_x s) n n1 g n)
       (fun g : arr => zlen g = n /\ forall i, (0 <= i < n)%Z -> zn 0 g i = yv s i - matvec n Hm (xv s) i)).
  { intros (M & EM & MO). apply wp_bind. eapply wp_mono; [exact Copy|]. intros g (Lgg & Vg). unfold q_theH. rewrite EM. cbn [bind].
    destruct (mo_times _ _ _ _ _ _ MO (nm1 (N := N)) (n1 (N := N)) (q_x s) g (or_intror eq_refl) (or_intror eq_refl) Lx Lgg) as (g' & E & L' & V).
    rewrite E. apply wp_ok. split; [etransitivity; [exact L'|exact Lgg]|]. intros i Hi. rewrite V by exact Hi. rewrite Vg by exact Hi. rewrite nm1_R. change (n1 (N := N)) with 1. transitivity (1 * yv s i + -1 * matvec n Hm (xv s) i); [reflexivity|ring]. }
  destruct (q_htype s); try exact (Plain HE); clear Plain.
  - (* zero *) destruct (usingReg s) eqn:UR.
    + eapply wp_mono; [apply (pointwise1 n _ (q_g s) (fun i _ v => v = yv s i - q_regVal s * xv s i) n)|]; [lia|exact Lg| |].
      * intros i a Hi La. rewrite (rd_ok 0) by (rcar; lia). cbn [bind]. rewrite (rd_ok 0) by (rcar; lia). cbn [bind]. rewrite wr_ok by (rcar; lia). apply wp_ok. rewrite zlen_zupd.
        split; [exact La|]. split; [apply same_off_upd; lia|]. rewrite zn_zupd_eq by lia. reflexivity.
      * intros a (A & B & _). split; [exact A|]. intros i Hi. rewrite B by exact Hi. f_equal. rewrite <- (matvec_delta n) by exact Hi. unfold matvec. apply rsum_ext. intros j _. now rewrite HE.
    + eapply wp_mono; [exact Copy|]. intros g (A & B). split; [exact A|]. intros i Hi. rewrite B by exact Hi. unfold matvec. rewrite rsum_0; [ring|]. intros j _. rewrite HE. ring.
  - (* identity *)
    eapply wp_mono; [apply (pointwise1 n _ (q_g s) (fun i _ v => v = yv s i - xv s i) n)|]; [lia|exact Lg| |].
    * intros i a Hi La. rewrite (rd_ok 0) by (rcar; lia). cbn [bind]. rewrite (rd_ok 0) by (rcar; lia). cbn [bind]. rewrite wr_ok by (rcar; lia). apply wp_ok. rewrite zlen_zupd.
      split; [exact La|]. split; [apply same_off_upd; lia|]. rewrite zn_zupd_eq by lia. reflexivity.
    * intros a (A & B & _). split; [exact A|]. intros i Hi. rewrite B by exact Hi. f_equal. rewrite <- (Rmult_1_l (xv s i)). rewrite <- (matvec_delta n) by exact Hi. unfold matvec. apply rsum_ext. intros j _. rewrite HE. ring.
Qed.
Lemma gradient_exact n (s : qpb N) l0 l1 Hm : qwf n s l0 l1 -> hess eps zero infty n s Hm ->
  wp (setupAuxiliaryQPgradient s) (fun s' => exists g : arr, s' = set_q_g (N := N) g s /\ zlen g = n /\
    forall i, (0 <= i < n)%Z -> zn 0 g i = yv s i - matvec n Hm (xv s) i).
Proof.
  intros W. pose proof (w_n _ _ _ _ W). apply gradient_of; [lia|apply W|apply W|apply W|]. rewrite (w_y _ _ _ _ W). lia.
Qed.

Lemma wf_status n (s : qpb N) l0 l1 i : qwf n s l0 l1 -> (0 <= i < n)%Z -> st_getStatus (q_bounds s) i = Ok (sv s i).
Proof. intros W Hi. apply (getStatus_ok _ l0 l1); [apply W|]. now rewrite (w_nV _ _ _ _ W). Qed.
Lemma wf_typ n (s : qpb N) l0 l1 i : qwf n s l0 l1 -> (0 <= i < n)%Z -> st_getType (q_bounds s) i = Ok (tv s i).
Proof. intros W Hi. apply (getType_ok _ l0 l1); [apply W|]. now rewrite (w_nV _ _ _ _ W). Qed.
Lemma getMax_R (a b : R) : getMax (N := N) a b = Rmax a b.
Proof. rnum. unfold Rmax. destruct (Rltb_spec b a), (Rle_dec a b); lra. Qed.
Lemma getMin_R (a b : R) : getMin (N := N) a b = Rmin a b.
Proof. rnum. unfold Rmin. destruct (Rltb_spec a b), (Rle_dec a b); lra. Qed.

Ltac rdx := rewrite (rd_ok 0) by (rcar; rewrite ?zlen_zupd; lia); cbn [bind].
Ltac wrx := rewrite wr_ok by (rcar; rewrite ?zlen_zupd; lia); cbn [bind].
Ltac pwdone := cbn [wp]; unfold ok3; rewrite ?zlen_zupd; split; [repeat split; assumption|];
  repeat (split; [first [apply same_off_refl | (apply same_off_upd; lia)]|]); rewrite ?zn_zupd_eq by lia.

(** ** Drift correction *)
Definition drift (t : SubjectToType) (v : SubjectToStatus) (x l u y l' u' y' : R) : Prop :=
  match t with
  | ST_BOUNDED =>
      match v with
      | ST_LOWER => l' = x /\ u' = Rmax u x /\ y' = Rmax y 0
      | ST_UPPER => l' = Rmin l x /\ u' = x /\ y' = Rmin y 0
      | ST_INACTIVE => l' = Rmin l x /\ u' = Rmax u x /\ y' = 0
      | _ => l' = l /\ u' = u /\ y' = y
      end
  | ST_EQUALITY => l' = x /\ u' = x /\ y' = y
  | _ => l' = l /\ u' = u /\ y' = y
  end.

(** [s'] differs from [s] in bounds, multipliers and gradient only *)
Definition corrected n (s s' : qpb N) (rel : Z -> SubjectToType -> SubjectToStatus -> R -> R -> R -> R -> R -> R -> R -> Prop) : Prop :=
  exists g lb ub y : arr, s' = set_q_g (N := N) g (set_q_y (N := N) y (set_q_ub (N := N) ub (set_q_lb (N := N) lb s))) /\
    zlen g = n /\ ok3 n lb ub y /\
    forall i, (0 <= i < n)%Z -> rel i (tv s i) (sv s i) (xv s i) (lv s i) (uv s i) (yv s i) (zn 0 lb i) (zn 0 ub i) (zn 0 y i).

Lemma corrected_wf n s s' rel l0 l1 : qwf n s l0 l1 -> corrected n s s' rel -> qwf n s' l0 l1.
Proof.
  intros W (g & lb & ub & y & -> & Lg & (Ll & Lu & Ly) & _). apply wf_set_g; [|exact Lg]. apply wf_set_y; [|exact Ly]. apply wf_set_ub; [|exact Lu]. now apply wf_set_lb.
Qed.

Lemma regradient n (s : qpb N) l0 l1 Hm (lb ub y : arr) : qwf n s l0 l1 -> hess eps zero infty n s Hm -> ok3 n lb ub y ->
  wp (setupAuxiliaryQPgradient (set_q_y (N := N) y (set_q_ub (N := N) ub (set_q_lb (N := N) lb s)))) (fun s' =>
    exists g : arr, s' = set_q_g (N := N) g (set_q_y (N := N) y (set_q_ub (N := N) ub (set_q_lb (N := N) lb s))) /\ zlen g = n /\ stationary n s' Hm).
Proof.
  intros W HE (Ll & Lu & Ly).
  eapply wp_mono; [apply (gradient_exact n _ l0 l1 Hm); [|exact HE]|].
  - apply wf_set_y; [|exact Ly]. apply wf_set_ub; [|exact Lu]. now apply wf_set_lb.
  - intros s' (g & -> & Lg & Vg). exists g. split; [reflexivity|]. split; [exact Lg|]. intros i Hi. specialize (Vg i Hi).
    transitivity (matvec n Hm (xv s) i + zn 0 g i); [reflexivity|]. rewrite Vg.
    transitivity (matvec n Hm (xv s) i + (zn 0 y i - matvec n Hm (xv s) i)); [reflexivity|]. transitivity (zn 0 y i); [ring|reflexivity].
Qed.

Lemma drift_exact n (s : qpb N) l0 l1 Hm : qwf n s l0 l1 -> hess eps zero infty n s Hm ->
  wp (performDriftCorrection s) (fun s' => corrected n s s' (fun _ => drift) /\ stationary n s' Hm).
Proof.
  intros W HE. unfold performDriftCorrection. rewrite (w_nv _ _ _ _ W). pose proof (w_n _ _ _ _ W) as Hn.
  pose proof (w_x _ _ _ _ W) as Lx. apply wp_bind.
  eapply wp_mono; [apply (pointwise3 n _ (q_lb s) (q_ub s) (q_y s) (fun i l u y l' u' y' => drift (tv s i) (sv s i) (xv s i) l u y l' u' y'))|].
  - lia.
  - repeat split; apply W.
  - intros i lb ub y Hi (Ll & Lu & Ly). rewrite (wf_typ n s l0 l1 i W Hi). cbn [bind]. unfold drift.
    destruct (tv s i).
    all: try (pwdone; repeat split; reflexivity).
    + rewrite (wf_status n s l0 l1 i W Hi). cbn [bind]. rdx. rdx. rdx. rdx. rewrite ?getMax_R, ?getMin_R.
      destruct (sv s i); repeat wrx; pwdone; repeat split; reflexivity.
    + rdx. repeat wrx. pwdone. repeat split; reflexivity.
  - intros ((lb, ub), y) (L & V). cbn iota beta. eapply wp_mono; [apply (regradient n s l0 l1 Hm lb ub y W HE L)|].
    intros s' (g & -> & Lg & ST). split; [|exact ST]. exists g, lb, ub, y. auto.
Qed.

(** ** Ramping *)
Definition rampv (s : qpb N) (n i : Z) : R :=
  let t : R := IZR (Z.rem (i + q_rampOffset s) n) / IZR (n - 1) in (1 - t) * (q_ramp0 s : R) + t * (q_ramp1 s : R).
Definition ramp (rv : R) (t : SubjectToType) (v : SubjectToStatus) (x l u y l' u' y' : R) : Prop :=
  match t with
  | ST_EQUALITY => l' = x /\ u' = x /\ y' = y
  | ST_UNBOUNDED | ST_DISABLED => l' = l /\ u' = u /\ y' = y
  | _ =>
      match v with
      | ST_LOWER => l' = x /\ u' = x + rv /\ y' = rv
      | ST_UPPER => l' = x - rv /\ u' = x /\ y' = - rv
      | ST_INACTIVE => l' = x - rv /\ u' = x + rv /\ y' = 0
      | _ => l' = x - rv /\ u' = x + rv /\ y' = y
      end
  end.
Lemma ramp_weight (s : qpb N) n i : (2 <= n)%Z -> (0 <= i)%Z -> (0 <= q_rampOffset s)%Z -> 0 <= IZR (Z.rem (i + q_rampOffset s) n) / IZR (n - 1) <= 1.
Proof.
  intros Hn Hi Ho.
  assert (B : (0 <= Z.rem (i + q_rampOffset s) n <= n - 1)%Z) by (pose proof (Z.rem_bound_pos (i + q_rampOffset s) n); lia).
  assert (D : 0 < IZR (n - 1)) by (apply IZR_lt; lia). assert (B1 : 0 <= IZR (Z.rem (i + q_rampOffset s) n)) by (apply IZR_le; lia).
  assert (B2 : IZR (Z.rem (i + q_rampOffset s) n) <= IZR (n - 1)) by (apply IZR_le; lia).
  split; [apply Rmult_le_pos; [exact B1|left; now apply Rinv_0_lt_compat]|].
  apply (Rmult_le_reg_r (IZR (n - 1))); [exact D|]. unfold Rdiv. rewrite Rmult_assoc, Rinv_l by lra. lra.
Qed.
Lemma rampv_nonneg (s : qpb N) n i : (2 <= n)%Z -> (0 <= i)%Z -> (0 <= q_rampOffset s)%Z -> 0 <= q_ramp0 s -> 0 <= q_ramp1 s -> 0 <= rampv s n i.
Proof.
  intros Hn Hi Ho H0 H1. unfold rampv. cbv zeta. destruct (ramp_weight s n i Hn Hi Ho) as (A & B). set (t := IZR _ / IZR _) in *. nra.
Qed.
Lemma rampv_le (s : qpb N) n i : (2 <= n)%Z -> (0 <= i)%Z -> (0 <= q_rampOffset s)%Z -> rampv s n i <= Rmax (q_ramp0 s) (q_ramp1 s).
Proof.
  intros Hn Hi Ho. unfold rampv. cbv zeta. destruct (ramp_weight s n i Hn Hi Ho) as (A & B). set (t := IZR _ / IZR _) in *.
  pose proof (Rmax_l (q_ramp0 s) (q_ramp1 s)) as M0. pose proof (Rmax_r (q_ramp0 s) (q_ramp1 s)) as M1. set (M := Rmax _ _) in *. nra.
Qed.

Lemma ramping_exact n (s : qpb N) l0 l1 Hm : qwf n s l0 l1 -> hess eps zero infty n s Hm ->
  wp (performRamping s) (fun s' => exists s1, s' = set_q_rampOffset (q_rampOffset s + 1) s1 /\ corrected n s s1 (fun i => ramp (rampv s n i)) /\ stationary n s' Hm).
Proof.
  intros W HE. unfold performRamping. rewrite (w_nv _ _ _ _ W). pose proof (w_n _ _ _ _ W) as Hn. cbv zeta.
  pose proof (w_x _ _ _ _ W) as Lx. apply wp_bind.
  eapply wp_mono; [apply (pointwise3 n _ (q_lb s) (q_ub s) (q_y s) (fun i l u y l' u' y' => ramp (rampv s n i) (tv s i) (sv s i) (xv s i) l u y l' u' y'))|].
  - lia.
  - repeat split; apply W.
  - intros i lb ub y Hi (Ll & Lu & Ly). rewrite (wf_typ n s l0 l1 i W Hi). cbn [bind]. unfold ramp. rdx.
    assert (RV : (n1 (N := N) -' rampT i (q_rampOffset s) n) *' q_ramp0 s +' rampT i (q_rampOffset s) n *' q_ramp1 s = rampv s n i).
    { unfold rampT, rampv. cbv zeta. rnum. change (Rlit 1 0) with 1. unfold Rlit. cbn [Z.leb Z.compare Z.pow]. now rewrite !Z.mul_1_r. }
    destruct (tv s i).
    all: try (pwdone; repeat split; reflexivity).
    all: try (repeat wrx; pwdone; repeat split; reflexivity).
    all: rewrite (wf_status n s l0 l1 i W Hi); cbn [bind]; rewrite RV; destruct (sv s i);
      repeat match goal with |- context [is_sts ?a ?b] => let v := eval vm_compute in (is_sts a b) in change (is_sts a b) with v; cbn iota; cbn [bind] end;
      repeat wrx; pwdone; repeat split; reflexivity.
  - intros ((lb, ub), y) (L & V). cbn iota beta. apply wp_bind. eapply wp_mono; [apply (regradient n s l0 l1 Hm lb ub y W HE L)|].
    intros s' (g & -> & Lg & ST). apply wp_ok. eexists. split; [reflexivity|]. split; [|exact ST]. exists g, lb, ub, y. auto.
Qed.

(** ** Auxiliary bounds *)
Definition auxb (relax : bool) (rlx : R) (t : SubjectToType) (v : SubjectToStatus) (x l u l' u' : R) : Prop :=
  let eq := is_stt t ST_EQUALITY in
  match v with
  | ST_INACTIVE => if relax then l' = (if eq then x else x - rlx) /\ u' = (if eq then x else x + rlx) else l' = l /\ u' = u
  | ST_LOWER => l' = x /\ u' = if eq then x else if relax then x + rlx else u
  | ST_UPPER => u' = x /\ l' = if eq then x else if relax then x - rlx else l
  | _ => True
  end.
Lemma auxbounds_exact n (s : qpb N) l0 l1 relax : qwf n s l0 l1 -> (forall i, (0 <= i < n)%Z -> sv s i <> ST_UNDEFINED) ->
  wp (setupAuxiliaryQPbounds relax s) (fun '(r, s') => r = SUCCESSFUL_RETURN /\ exists lb ub : arr, s' = set_q_ub (N := N) ub (set_q_lb (N := N) lb s) /\
    zlen lb = n /\ zlen ub = n /\
    forall i, (0 <= i < n)%Z -> auxb relax (o_boundRelaxation (q_opts s)) (tv s i) (sv s i) (xv s i) (lv s i) (uv s i) (zn 0 lb i) (zn 0 ub i)).
Proof.
  intros W DF. unfold setupAuxiliaryQPbounds. rewrite (w_nv _ _ _ _ W). pose proof (w_n _ _ _ _ W) as Hn. cbv zeta. set (rlx := o_boundRelaxation (q_opts s)).
  pose proof (w_x _ _ _ _ W) as Lx. apply wp_bind.
  apply wp_forb_up with (J := fun _ => False) (I := fun k '((lb, ub) : arr * arr) => zlen lb = n /\ zlen ub = n /\
    (forall i, (0 <= i < k)%Z -> auxb relax rlx (tv s i) (sv s i) (xv s i) (lv s i) (uv s i) (zn 0 lb i) (zn 0 ub i)) /\
    forall i, (k <= i)%Z -> zn 0 lb i = lv s i /\ zn 0 ub i = uv s i).
  - lia.
  - split; [apply W|]. split; [apply W|]. split; [intros; lia|]. intros; split; reflexivity.
  - intros k (lb, ub) Hk (Ll & Lu & V1 & V2). rewrite (wf_status n s l0 l1 k W Hk). cbn [bind]. rewrite (wf_typ n s l0 l1 k W Hk). cbn [bind]. rdx.
    assert (St : forall lb' ub' : arr, zlen lb' = n -> zlen ub' = n -> same_off k lb lb' -> same_off k ub ub' ->
      auxb relax rlx (tv s k) (sv s k) (xv s k) (lv s k) (uv s k) (zn 0 lb' k) (zn 0 ub' k) ->
      zlen lb' = n /\ zlen ub' = n /\ (forall i, (0 <= i < k + 1)%Z -> auxb relax rlx (tv s i) (sv s i) (xv s i) (lv s i) (uv s i) (zn 0 lb' i) (zn 0 ub' i)) /\
      forall i, (k + 1 <= i)%Z -> zn 0 lb' i = lv s i /\ zn 0 ub' i = uv s i).
    { intros lb' ub' A B C D E. split; [exact A|]. split; [exact B|]. split; intros i Hi.
      - destruct (Z.eq_dec i k) as [->|]; [exact E|]. rewrite C, D by lia. apply V1. lia.
      - rewrite C, D by lia. apply V2. lia. }
    assert (VL : zn 0 lb k = lv s k) by (apply V2; lia). assert (VU : zn 0 ub k = uv s k) by (apply V2; lia).
    pose proof (w_good _ _ _ _ W k Hk) as GS. change (good_status (sv s k)) in GS. pose proof (DF k Hk) as DFk. unfold auxb at 1 in St.
    destruct (sv s k); try (exfalso; destruct GS as [GS|[GS|GS]]; try discriminate GS; contradiction DFk; reflexivity); destruct (is_stt (tv s k) ST_EQUALITY), relax; repeat wrx; cbn [wp];
      (apply St; rewrite ?zlen_zupd; auto; first [apply same_off_refl | (apply same_off_upd; lia) | (rewrite ?zn_zupd_eq by lia; split; auto)]).
  - intros (lb, ub) (Ll & Lu & V1 & _). cbn [wp]. split; [reflexivity|]. exists lb, ub. auto.
  - intros e Fa. contradiction.
Qed.

(** the auxiliary solution is the guess, zero where there is none *)
Definition guess_at (o : option arr) (i : Z) : R := match o with Some a => zn 0 a i | None => 0 end.
Lemma auxsolution_exact n (s : qpb N) l0 l1 (xOpt yOpt : option arr) : qwf n s l0 l1 -> (forall a, xOpt = Some a -> (n <= zlen a)%Z) -> (forall a, yOpt = Some a -> (n <= zlen a)%Z) ->
  wp (setupAuxiliaryQPsolution (N := N) xOpt yOpt s) (fun s' => exists x y : arr, s' = set_q_y (N := N) y (set_q_x (N := N) x s) /\ zlen x = n /\ zlen y = n /\
    forall i, (0 <= i < n)%Z -> zn 0 x i = guess_at xOpt i /\ zn 0 y i = guess_at yOpt i).
Proof.
  intros W LX LY. unfold setupAuxiliaryQPsolution. rewrite (w_nv _ _ _ _ W). pose proof (w_n _ _ _ _ W) as Hn. cbv zeta.
  assert (C : forall (src : option arr) (dst : arr), zlen dst = n -> (forall a, src = Some a -> (n <= zlen a)%Z) ->
    wp (for_up 0 n (fun i (a : list N) => v <- match src with Some o => rd o i | None => Ok (n0 (N := N)) end ;; wr a i v) dst)
      (fun a : arr => zlen a = n /\ forall i, (0 <= i < n)%Z -> zn 0 a i = guess_at src i)).
  { intros src dst Ld Ls. eapply wp_mono; [apply (pointwise1 n _ dst (fun i _ v => v = guess_at src i) n)|]; [lia|exact Ld| |].
    - intros i a Hi La. destruct src as [o|]; cbn [guess_at].
      + specialize (Ls o eq_refl). rdx. wrx. cbn [wp]. rewrite zlen_zupd. split; [exact La|]. split; [apply same_off_upd; lia|]. rewrite zn_zupd_eq by lia. reflexivity.
      + cbn [bind]. wrx. cbn [wp]. rewrite zlen_zupd. split; [exact La|]. split; [apply same_off_upd; lia|]. rewrite zn_zupd_eq by lia. reflexivity.
    - intros a (A & B & _). auto. }
  apply wp_bind. eapply wp_mono; [apply C; [apply W|exact LX]|]. intros x (Lx & Vx). apply wp_bind. eapply wp_mono; [apply C; [apply W|exact LY]|]. intros y (Ly & Vy).
  apply wp_ok. exists x, y. split; [reflexivity|]. split; [exact Lx|]. split; [exact Ly|]. intros i Hi. auto.
Qed.
End X5.
