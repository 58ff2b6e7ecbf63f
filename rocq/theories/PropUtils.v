(** Properties C13, C14, C16, C17, C56: KKT residuals, norms, normalisation of
    constraints, reading files. *)
From Verif Require Import Base Types Num Utils Loops RSum Kkt.
Local Open Scope R_scope.

Lemma idx_bound i j n m : (0 <= i < n)%Z -> (0 <= j < m)%Z -> (0 <= i * m + j < n * m)%Z.
Proof. intros. nia. Qed.

Lemma Rabs_le_inv' a b : Rabs a <= b -> - b <= a <= b.
Proof. unfold Rabs. destruct (Rcase_abs a); lra. Qed.

(** Least upper bound of a set of reals together with 0. *)
Definition is_sup (P : R -> Prop) (m : R) : Prop :=
  0 <= m /\ (forall v, P v -> v <= m) /\ (m = 0 \/ P m).

Lemma is_sup_ext P Q m : is_sup P m -> (forall v, P v <-> Q v) -> is_sup Q m.
Proof. intros (H0 & H1 & H2) E. split; [exact H0|]. split; [intros v Hv; apply H1, E, Hv|]. destruct H2 as [H2|H2]; [now left|right; now apply E]. Qed.

Lemma is_sup_add P m v : is_sup P m -> is_sup (fun w => P w \/ w = v) (if Rltb m v then v else m).
Proof.
  intros (H0 & H1 & H2). destruct (Rltb_spec m v) as [L|L].
  - split; [lra|]. split; [|right; now right]. intros w [Hw| ->]; [specialize (H1 w Hw); lra|lra].
  - split; [lra|]. split; [|destruct H2; auto]. intros w [Hw| ->]; [auto|lra].
Qed.

Lemma is_sup_absorb P m : is_sup P m -> is_sup (fun w => P w \/ w = 0) m.
Proof. intros (H0 & H1 & H2). split; [exact H0|]. split; [intros w [Hw| ->]; [auto|lra]|]. destruct H2; auto. Qed.

(** ** KKT residuals *)

Section KKT.
Variables eps zero infty : R.
Notation N := (RNumT eps zero infty).

(** The problem the arguments describe. *)
Definition ob (b : option (list R)) (i : Z) : option R := option_map (fun l => zn 0 l i) b.
Definition problem (nV nC : Z) (H g A lb ub lbA ubA : option (list R)) (idH : bool) : qp :=
  mkQp nV nC
    (fun i j => match H with Some h => zn 0 h (i * nV + j) | None => if idH then (if Z.eqb i j then 1 else 0) else 0 end)
    (fun i => match g with Some g => zn 0 g i | None => 0 end)
    (fun i j => match A with Some a => zn 0 a (i * nV + j) | None => 0 end)
    (ob lb) (ob ub) (ob lbA) (ob ubA).

Definition enough (n : Z) (b : option (list R)) : Prop := forall l, b = Some l -> (n <= zlen l)%Z.

(** The residuals of the KKT conditions, as sets of numbers. *)
Definition stat_res (q : qp) (x y : list R) (k : Z) (w : R) : Prop :=
  exists i, (0 <= i < k)%Z /\ w = Rabs (stationarity q (zn 0 x) (zn 0 y) (fun j => zn 0 y (q_nV q + j)) i).
Definition viol (l u : option R) (v w : R) : Prop :=
  (exists b, l = Some b /\ w = b - v) \/ (exists b, u = Some b /\ w = v - b).
(** A bound counts as active if its multiplier exceeds 1000 EPS or, when a
    working set is passed, if it is in the working set. *)
Definition actL (ws : option (list R)) (i : Z) (y : R) : Prop :=
  match ws with None => 1000 * eps < y | Some w => Rabs (zn 0 w i - -1) <= zero end.
Definition actU (ws : option (list R)) (i : Z) (y : R) : Prop :=
  match ws with None => y < - (1000 * eps) | Some w => Rabs (zn 0 w i - 1) <= zero end.
Definition gapset (l u : option R) (ws : option (list R)) (i : Z) (v y w : R) : Prop :=
  (exists b, l = Some b /\ actL ws i y /\ w = Rabs ((v - b) * y)) \/
  (exists b, u = Some b /\ actU ws i y /\ w = Rabs ((v - b) * y)).

Lemma feas1_spec P (lb ub : option (list R)) i v f n : (0 <= i < n)%Z -> enough n lb -> enough n ub -> is_sup P f ->
  wp (kkt_feas1 (N := N) lb ub i v f) (fun f' => is_sup (fun w => P w \/ viol (ob lb i) (ob ub i) v w) f').
Proof.
  intros Hi Hl Hu Hs. unfold kkt_feas1. rcar.
  destruct lb as [lb|], ub as [ub|]; cbn [ob option_map].
  - pose proof (Hl _ eq_refl). pose proof (Hu _ eq_refl).
    rewrite (rd_ok 0) by lia. cbn [bind]. rewrite (rd_ok 0) by lia. cbn [bind wp]. rnum.
    apply (is_sup_add _ _ (zn 0 lb i - v)) in Hs. apply (is_sup_add _ _ (v - zn 0 ub i)) in Hs.
    eapply is_sup_ext; [exact Hs|]. intros w. unfold viol. cbv beta. split.
    + intros [[Hw| ->]| ->]; [now left|right; left; eauto|right; right; eauto].
    + intros [Hw|[(b & E & ->)|(b & E & ->)]]; [auto| |]; injection E as <-; auto.
  - pose proof (Hl _ eq_refl). rewrite (rd_ok 0) by lia. cbn [bind wp]. rnum.
    apply (is_sup_add _ _ (zn 0 lb i - v)) in Hs. eapply is_sup_ext; [exact Hs|]. intros w. unfold viol. split.
    + intros [Hw| ->]; [now left|right; left; eauto].
    + intros [Hw|[(b & E & ->)|(b & E & ->)]]; [auto| |]; [injection E as <-; auto|discriminate].
  - pose proof (Hu _ eq_refl). cbn [bind]. rewrite (rd_ok 0) by lia. cbn [bind wp]. rnum.
    apply (is_sup_add _ _ (v - zn 0 ub i)) in Hs. eapply is_sup_ext; [exact Hs|]. intros w. unfold viol. split.
    + intros [Hw| ->]; [now left|right; right; eauto].
    + intros [Hw|[(b & E & ->)|(b & E & ->)]]; [auto| |]; [discriminate|injection E as <-; auto].
  - cbn [bind wp]. eapply is_sup_ext; [exact Hs|]. intros w. unfold viol. split; [now left|].
    intros [Hw|[(b & E & ->)|(b & E & ->)]]; [auto|discriminate|discriminate].
Qed.

Hypothesis Heps : 0 <= eps.
Hypothesis Hzero : 0 <= zero < 1.

Lemma act_excl ws i y : actL ws i y -> actU ws i y -> False.
Proof.
  unfold actL, actU. destruct ws as [w|]; [|intros; lra].
  intros H1 H2. apply Rabs_le_inv' in H1. apply Rabs_le_inv' in H2. lra.
Qed.

Definition actLb (ws : option (list R)) i y : bool :=
  match ws with None => Rltb (1000 * eps) y | Some w => Rleb (Rabs (zn 0 w i - -1)) zero end.
Definition actUb (ws : option (list R)) i y : bool :=
  match ws with None => Rltb y (- (1000 * eps)) | Some w => Rleb (Rabs (zn 0 w i - 1)) zero end.
Lemma actLb_spec ws i y : reflect (actL ws i y) (actLb ws i y).
Proof. unfold actL, actLb. destruct ws; [apply Rleb_spec|apply Rltb_spec]. Qed.
Lemma actUb_spec ws i y : reflect (actU ws i y) (actUb ws i y).
Proof. unfold actU, actUb. destruct ws; [apply Rleb_spec|apply Rltb_spec]. Qed.

Lemma cmpl1_spec P (lb ub ws : option (list R)) i v y f n : (0 <= i < n)%Z -> enough n lb -> enough n ub -> enough n ws ->
  is_sup P f ->
  wp (kkt_cmpl1 (N := N) lb ub ws i v y f) (fun f' => is_sup (fun w => P w \/ gapset (ob lb i) (ob ub i) ws i v y w) f').
Proof.
  intros Hi Hl Hu Hw Hs. unfold kkt_cmpl1. cbv zeta. rcar.
  assert (EL : forall (k : bool -> res R), bind (match ws with None => Ok (nltb (nlit 1 3 *' nEPS : N) y)
     | Some w => wi <- rd w i ;; Ok (isEqual (wi : N) nm1) end) k = k (actLb ws i y)).
  { intros k. destruct ws as [w|]; [|reflexivity]. pose proof (Hw _ eq_refl). rewrite (rd_ok 0) by lia. cbn [bind].
    unfold actLb. f_equal. }
  assert (EU : forall (k : bool -> res R), bind (match ws with None => Ok (nltb (y : N) (-' (nlit 1 3 *' nEPS)))
     | Some w => wi <- rd w i ;; Ok (isEqual (wi : N) n1) end) k = k (actUb ws i y)).
  { intros k. destruct ws as [w|]; [|reflexivity]. pose proof (Hw _ eq_refl). rewrite (rd_ok 0) by lia. cbn [bind].
    unfold actUb. f_equal. }
  set (p1 := match ob lb i with Some b => if actLb ws i y then (v - b) * y else 0 | None => 0 end).
  match goal with |- wp (bind ?m _) _ => assert (E1 : m = Ok p1) end.
  { unfold p1. destruct lb as [lb|]; [|reflexivity]. cbn [ob option_map]. etransitivity; [apply EL|]. destruct (actLb ws i y); [|reflexivity].
    pose proof (Hl _ eq_refl). rewrite (rd_ok 0) by lia. reflexivity. }
  rewrite E1. cbn [bind].
  set (p2 := match ob ub i with Some b => if actUb ws i y then (v - b) * y else p1 | None => p1 end).
  match goal with |- wp (bind ?m _) _ => assert (E2 : m = Ok p2) end.
  { unfold p2. destruct ub as [ub|]; [|reflexivity]. cbn [ob option_map]. etransitivity; [apply EU|]. destruct (actUb ws i y); [|reflexivity].
    pose proof (Hu _ eq_refl). rewrite (rd_ok 0) by lia. reflexivity. }
  rewrite E2. cbn [bind wp]. rnum.
  apply (is_sup_add _ _ (Rabs p2)) in Hs. apply is_sup_absorb in Hs.
  assert (Hs' : is_sup (fun w => P w \/ gapset (ob lb i) (ob ub i) ws i v y w \/ w = 0) (if Rltb f (Rabs p2) then Rabs p2 else f)).
  { eapply is_sup_ext; [exact Hs|]. intros w. cbv beta. unfold gapset, p2, p1.
    destruct (ob lb i) as [bl|], (ob ub i) as [bu|];
      destruct (actLb_spec ws i y) as [L|L], (actUb_spec ws i y) as [U|U];
      try (exfalso; eapply act_excl; eassumption); rewrite ?Rabs_R0; split;
      try (intros [[Hp| ->]| ->]; eauto 7);
      (intros [Hp|[[(b & E & A & ->)|(b & E & A & ->)]| ->]]; try discriminate; try contradiction;
        try (injection E as <-); auto). }
  destruct Hs' as (A0 & A1 & A2). split; [exact A0|]. split; [intros w [Hp|Hg]; apply A1; auto|].
  destruct A2 as [A2|[A2|[A2|A2]]]; auto.
Qed.

Lemma stat_spec nV nC (H g A : option (list R)) (x y : list R) idH lb ub lbA ubA : (0 <= nV)%Z -> (0 <= nC)%Z ->
  enough (nV * nV) H -> enough nV g -> enough (nC * nV) A -> (nV <= zlen x)%Z -> (nV + nC <= zlen y)%Z ->
  wp (kkt_stat (N := N) nV nC H g A x y idH)
     (is_sup (stat_res (problem nV nC H g A lb ub lbA ubA idH) x y nV)).
Proof.
  intros HnV HnC HH Hg HA Lx Ly. unfold kkt_stat. rcar. set (q := problem nV nC H g A lb ub lbA ubA idH).
  apply wp_for_up with (I := fun k s => is_sup (stat_res q x y k) s); auto.
  - rnum. split; [lra|]. split; [|now left]. intros v (i & Hi & _). lia.
  - intros i s Hi Hs.
    match goal with |- wp (bind ?m _) _ => assert (E1 : m = Ok (q_g q i - zn 0 y i)) end.
    { destruct g as [g|]; cbn [q q_g problem].
      - pose proof (Hg _ eq_refl). rewrite (rd_ok 0) by lia. cbn [bind]. rewrite (rd_ok 0) by lia. reflexivity.
      - rewrite (rd_ok 0) by lia. reflexivity. }
    rewrite E1. cbn [bind]. set (a1 := q_g q i - zn 0 y i).
    match goal with |- wp (bind ?m _) _ => assert (E2 : m = Ok (a1 + Hx q (zn 0 x) i)) end.
    { destruct H as [H|].
      - pose proof (HH _ eq_refl). rewrite (sum_loop 0 nV _ (fun j => zn 0 H (i * nV + j) * zn 0 x j)); auto.
        intros j s0 Hj. pose proof (idx_bound i j nV nV Hi Hj). rewrite (rd_ok 0) by lia. cbn [bind].
        rewrite (rd_ok 0) by lia. reflexivity.
      - unfold Hx. cbn [q q_H q_nV problem]. destruct idH.
        + rewrite (rd_ok 0) by lia. cbn [bind]. rnum. f_equal. f_equal.
          rewrite (rsum_delta 0 nV i).
          * rewrite Z.eqb_refl. ring.
          * lia.
          * intros j Hj Hne. destruct (Z.eqb_spec i j); [congruence|ring].
        + f_equal. rewrite rsum_0; [ring|]. intros; ring. }
    rewrite E2. cbn [bind]. set (a2 := a1 + Hx q (zn 0 x) i).
    match goal with |- wp (bind ?m _) _ => assert (E3 : m = Ok (a2 - rsum 0 nC (fun j => q_A q j i * zn 0 y (nV + j)))) end.
    { destruct A as [A|].
      - pose proof (HA _ eq_refl). rewrite (diff_loop 0 nC _ (fun j => q_A q j i * zn 0 y (nV + j))); auto.
        intros j s0 Hj. pose proof (idx_bound j i nC nV Hj Hi). rewrite (rd_ok 0) by lia. cbn [bind].
        rewrite (rd_ok 0) by lia. reflexivity.
      - f_equal. rewrite rsum_0; [ring|]. intros. cbn [q q_A problem]. ring. }
    rewrite E3. cbn [bind wp]. rnum.
    eapply is_sup_ext; [apply is_sup_add; exact Hs|]. intros v. unfold stat_res. split.
    + intros [(j & Hj & ->)| ->]; [exists j; split; [lia|reflexivity]|exists i; split; [lia|reflexivity]].
    + intros (j & Hj & ->). destruct (Z.eq_dec j i) as [->|]; [now right|left; exists j; split; [lia|reflexivity]].
Qed.

Definition feas_set (q : qp) (x : list R) (kb kc : Z) (w : R) : Prop :=
  (exists i, (0 <= i < kb)%Z /\ viol (q_lb q i) (q_ub q i) (zn 0 x i) w) \/
  (exists i, (0 <= i < kc)%Z /\ viol (q_lbA q i) (q_ubA q i) (Ax q (zn 0 x) i) w).
Definition cmpl_set (q : qp) (wsB wsC : option (list R)) (x y : list R) (kb kc : Z) (w : R) : Prop :=
  (exists i, (0 <= i < kb)%Z /\ gapset (q_lb q i) (q_ub q i) wsB i (zn 0 x i) (zn 0 y i) w) \/
  (exists i, (0 <= i < kc)%Z /\ gapset (q_lbA q i) (q_ubA q i) wsC i (Ax q (zn 0 x) i) (zn 0 y (q_nV q + i)) w).

(** getKktViolation is defined and returns the three largest residuals. *)
Theorem C13_residuals : forall nV nC (H g A lb ub lbA ubA wsB wsC : option (list R)) (x y : list R) idH,
  (0 <= nV)%Z -> (0 <= nC)%Z ->
  enough (nV * nV) H -> enough nV g -> enough (nC * nV) A -> enough nV lb -> enough nV ub ->
  enough nC lbA -> enough nC ubA -> enough nV wsB -> enough nC wsC ->
  (nV <= zlen x)%Z -> (nV + nC <= zlen y)%Z ->
  let q := problem nV nC H g A lb ub lbA ubA idH in
  exists stat feas cmpl,
    getKktViolation (N := N) nV nC H g A lb ub lbA ubA x y wsB wsC idH = Ok (stat, feas, cmpl) /\
    is_sup (stat_res q x y nV) stat /\ is_sup (feas_set q x nV nC) feas /\ is_sup (cmpl_set q wsB wsC x y nV nC) cmpl.
Proof.
  intros nV nC H g A lb ub lbA ubA wsB wsC x y idH HnV HnC HH Hg HA Hlb Hub HlbA HubA HwB HwC Lx Ly q.
  unfold getKktViolation. rcar.
  destruct (wp_inv _ _ (stat_spec nV nC H g A x y idH lb ub lbA ubA HnV HnC HH Hg HA Lx Ly)) as (stat & -> & Hstat).
  cbn [bind]. change (car N) with R.
  assert (W1 : wp (for_up 0 nV (fun i feas => xi <- rd x i ;; kkt_feas1 (N := N) lb ub i xi feas) 0)
                  (fun f => is_sup (feas_set q x nV 0) f)).
  { apply wp_for_up with (I := fun k f => is_sup (feas_set q x k 0) f); auto.
    - split; [lra|]. split; [|now left]. intros v [(i & Hi & _)|(i & Hi & _)]; lia.
    - intros i s Hi Hs. rewrite (rd_ok 0) by lia. cbn [bind]. eapply wp_mono; [eapply feas1_spec; eauto|].
      intros f Hf. eapply is_sup_ext; [exact Hf|]. intros v. unfold feas_set. cbn [q q_lb q_ub problem]. split.
      + intros [[(j & Hj & V)|(j & Hj & V)]|V]; [left; exists j; split; [lia|exact V]|lia|left; exists i; split; [lia|exact V]].
      + intros [(j & Hj & V)|(j & Hj & V)]; [|lia]. destruct (Z.eq_dec j i) as [->|]; [now right|].
        left; left; exists j; split; [lia|exact V]. }
  destruct (wp_inv _ _ W1) as (f1 & E1 & Hf1).
  change (n0 : N) with 0. change (car N) with R in E1. rewrite E1. cbn [bind]. clear W1 E1.
  assert (W2 : wp (for_up 0 nV (fun i cmpl => xi <- rd x i ;; yi <- rd y i ;; kkt_cmpl1 (N := N) lb ub wsB i xi yi cmpl) 0)
                  (fun f => is_sup (cmpl_set q wsB wsC x y nV 0) f)).
  { apply wp_for_up with (I := fun k f => is_sup (cmpl_set q wsB wsC x y k 0) f); auto.
    - split; [lra|]. split; [|now left]. intros v [(i & Hi & _)|(i & Hi & _)]; lia.
    - intros i s Hi Hs. rewrite (rd_ok 0) by lia. cbn [bind]. rewrite (rd_ok 0) by lia. cbn [bind].
      eapply wp_mono; [eapply cmpl1_spec; eauto|].
      intros f Hf. eapply is_sup_ext; [exact Hf|]. intros v. unfold cmpl_set. cbn [q q_lb q_ub problem]. split.
      + intros [[(j & Hj & V)|(j & Hj & V)]|V]; [left; exists j; split; [lia|exact V]|lia|left; exists i; split; [lia|exact V]].
      + intros [(j & Hj & V)|(j & Hj & V)]; [|lia]. destruct (Z.eq_dec j i) as [->|]; [now right|].
        left; left; exists j; split; [lia|exact V]. }
  destruct (wp_inv _ _ W2) as (c1 & E2 & Hc1).
  change (car N) with R in E2. rewrite E2. cbn [bind]. clear W2 E2.
  match goal with |- context [for_up 0 nC ?b ?i] => set (body := b); set (init := i) end.
  assert (W3 : wp (for_up 0 nC body init)
     (fun p => is_sup (feas_set q x nV nC) (fst p) /\ is_sup (cmpl_set q wsB wsC x y nV nC) (snd p))).
  { apply wp_for_up with (I := fun k p => is_sup (feas_set q x nV k) (fst p) /\ is_sup (cmpl_set q wsB wsC x y nV k) (snd p)); auto.
    intros i [f c] Hi [Hf Hc]. unfold body. cbn [fst snd] in *.
    match goal with |- wp (bind ?m _) _ => assert (E3 : m = Ok (Ax q (zn 0 x) i)) end.
    { destruct A as [A|].
      - pose proof (HA _ eq_refl). rewrite (sum_loop 0 nV _ (fun j => zn 0 A (i * nV + j) * zn 0 x j)); auto.
        + f_equal. unfold Ax. cbn [q q_nV q_A problem]. apply Rplus_0_l.
        + intros j s0 Hj. pose proof (idx_bound i j nC nV Hi Hj). rewrite (rd_ok 0) by lia. cbn [bind].
          rewrite (rd_ok 0) by lia. reflexivity.
      - f_equal. unfold Ax. rewrite rsum_0; [ring|]. intros. cbn [q q_A problem]. ring. }
    rewrite E3. cbn [bind].
    apply wp_bind. eapply wp_mono; [eapply (feas1_spec _ lbA ubA); eauto|]. intros f' Hf'.
    rewrite (rd_ok 0) by lia. cbn [bind]. apply wp_bind.
    eapply wp_mono; [eapply (cmpl1_spec _ lbA ubA wsC); eauto|]. intros c' Hc'. cbn [wp fst snd]. split.
    - eapply is_sup_ext; [exact Hf'|]. intros v. unfold feas_set. cbn [q q_lbA q_ubA problem]. split.
      + intros [[V|(j & Hj & V)]|V]; [now left|right; exists j; split; [lia|exact V]|right; exists i; split; [lia|exact V]].
      + intros [V|(j & Hj & V)]; [auto|]. destruct (Z.eq_dec j i) as [->|]; [now right|].
        left; right; exists j; split; [lia|exact V].
    - eapply is_sup_ext; [exact Hc'|]. intros v. unfold cmpl_set. cbn [q q_lbA q_ubA q_nV problem]. split.
      + intros [[V|(j & Hj & V)]|V]; [now left|right; exists j; split; [lia|exact V]|right; exists i; split; [lia|exact V]].
      + intros [V|(j & Hj & V)]; [auto|]. destruct (Z.eq_dec j i) as [->|]; [now right|].
        left; right; exists j; split; [lia|exact V]. }
  destruct (wp_inv _ _ W3) as ([f3 c3] & E3 & Hf3 & Hc3). rewrite E3. cbn [bind fst snd] in *.
  exists stat, f3, c3. auto.
Qed.
End KKT.

(** ** C13: what the residuals certify *)

Section Certify.
Variables eps zero infty : R.
Notation N := (RNumT eps zero infty).

(** The arguments are arrays of sufficient length. *)
Record args_ok (nV nC : Z) (H g A lb ub lbA ubA : option (list R)) (x y : list R) : Prop := {
  ao_nV : (0 <= nV)%Z; ao_nC : (0 <= nC)%Z;
  ao_H : enough (nV * nV) H; ao_g : enough nV g; ao_A : enough (nC * nV) A;
  ao_lb : enough nV lb; ao_ub : enough nV ub; ao_lbA : enough nC lbA; ao_ubA : enough nC ubA;
  ao_x : (nV <= zlen x)%Z; ao_y : (nV + nC <= zlen y)%Z }.

Lemma kkt_call nV nC (H g A lb ub lbA ubA : option (list R)) (x y : list R) idH wsB wsC stat feas cmpl :
  0 <= eps -> 0 <= zero < 1 ->
  args_ok nV nC H g A lb ub lbA ubA x y -> enough nV wsB -> enough nC wsC ->
  getKktViolation (N := N) nV nC H g A lb ub lbA ubA x y wsB wsC idH = Ok (stat, feas, cmpl) ->
  let q := problem nV nC H g A lb ub lbA ubA idH in
  is_sup (stat_res q x y nV) stat /\ is_sup (feas_set q x nV nC) feas /\ is_sup (cmpl_set eps zero q wsB wsC x y nV nC) cmpl.
Proof.
  intros He Hz [] HwB HwC E q.
  destruct (C13_residuals eps zero infty He Hz nV nC H g A lb ub lbA ubA wsB wsC x y idH) as (s & f & c & E' & R); auto.
  rewrite E in E'. injection E' as -> -> ->. exact R.
Qed.

(** Multipliers belong to bounds that exist. *)
Definition supported (l u : option R) (y t : R) : Prop := (t < y -> l <> None) /\ (y < - t -> u <> None).

Lemma mult_slack (l u : option R) v y z cmpl t : 0 <= t -> 0 <= cmpl -> supported l u y t -> within l u z ->
  (forall b, l = Some b -> t < y -> Rabs ((v - b) * y) <= cmpl) ->
  (forall b, u = Some b -> y < - t -> Rabs ((v - b) * y) <= cmpl) ->
  - cmpl - t * Rabs (z - v) <= y * (z - v).
Proof.
  intros Ht Hc [S1 S2] [W1 W2] H1 H2. pose proof (Rabs_pos (z - v)) as Hp.
  assert (0 <= t * Rabs (z - v)) by (apply Rmult_le_pos; lra).
  destruct (Rlt_dec t y) as [L|L]; [|destruct (Rlt_dec y (- t)) as [L'|L']].
  - destruct l as [b|]; [|now contradiction (S1 L)]. specialize (W1 b eq_refl). specialize (H1 b eq_refl L).
    apply Rabs_le_inv' in H1. nra.
  - destruct u as [b|]; [|now contradiction (S2 L')]. specialize (W2 b eq_refl). specialize (H2 b eq_refl L').
    apply Rabs_le_inv' in H2. nra.
  - pose proof (Rle_abs (- (y * (z - v)))) as A. rewrite Rabs_Ropp, Rabs_mult in A.
    assert (Rabs y <= t) by (unfold Rabs; destruct (Rcase_abs y); lra).
    assert (Rabs y * Rabs (z - v) <= t * Rabs (z - v)) by now apply Rmult_le_compat_r. lra.
Qed.

(** Residuals (stat, feas, cmpl) bound the infeasibility and the distance to the
    optimal value over every feasible point z. *)
Theorem C13_gap : forall nV nC (H g A lb ub lbA ubA : option (list R)) (x y : list R) idH stat feas cmpl,
  0 <= eps -> 0 <= zero < 1 ->
  args_ok nV nC H g A lb ub lbA ubA x y ->
  let q := problem nV nC H g A lb ub lbA ubA idH in
  symmetric q -> psd q ->
  (forall i, (0 <= i < nV)%Z -> supported (q_lb q i) (q_ub q i) (zn 0 y i) (1000 * eps)) ->
  (forall i, (0 <= i < nC)%Z -> supported (q_lbA q i) (q_ubA q i) (zn 0 y (nV + i)) (1000 * eps)) ->
  getKktViolation (N := N) nV nC H g A lb ub lbA ubA x y None None idH = Ok (stat, feas, cmpl) ->
  forall z, feasible q z ->
    objective q (zn 0 x) - (stat + 1000 * eps) * rsum 0 nV (fun i => Rabs (z i - zn 0 x i))
      - 1000 * eps * rsum 0 nC (fun j => Rabs (Ax q z j - Ax q (zn 0 x) j)) - IZR (nV + nC) * cmpl
    <= objective q z.
Proof.
  intros nV nC H g A lb ub lbA ubA x y idH stat feas cmpl He Hz Ha q S P Sb Sc E z [F1 F2].
  destruct (kkt_call nV nC H g A lb ub lbA ubA x y idH None None stat feas cmpl He Hz Ha) as (I1 & I2 & I3); auto;
    try (intros l; discriminate).
  fold q in I1, I2, I3. destruct Ha. destruct I1 as (_ & I1 & _). destruct I3 as (I30 & I3 & _).
  apply (approx_optimal q (zn 0 x) (zn 0 y) (fun j => zn 0 y (nV + j)) z stat cmpl (1000 * eps)); auto.
  - intros i Hi. apply I1. exists i. split; [exact Hi|]. reflexivity.
  - intros i Hi. eapply mult_slack; eauto; [lra| |].
    + intros b Eb L. apply I3. left. exists i. split; [exact Hi|]. left. exists b. auto.
    + intros b Eb L. apply I3. left. exists i. split; [exact Hi|]. right. exists b. auto.
  - intros i Hi. eapply mult_slack; eauto; [lra| |].
    + intros b Eb L. apply I3. right. exists i. split; [exact Hi|]. left. exists b. auto.
    + intros b Eb L. apply I3. right. exists i. split; [exact Hi|]. right. exists b. auto.
Qed.

(** C14: every bound that is passed is covered by the feasibility residual. *)
Theorem C14_feasibility_residual : forall nV nC (H g A lb ub lbA ubA : option (list R)) (x y : list R) wsB wsC idH stat feas cmpl,
  0 <= eps -> 0 <= zero < 1 ->
  args_ok nV nC H g A lb ub lbA ubA x y -> enough nV wsB -> enough nC wsC ->
  getKktViolation (N := N) nV nC H g A lb ub lbA ubA x y wsB wsC idH = Ok (stat, feas, cmpl) ->
  let q := problem nV nC H g A lb ub lbA ubA idH in
  (feas = 0 <-> feasible q (zn 0 x)) /\
  (forall i, (0 <= i < nV)%Z -> within (option_map (fun b => b - feas) (ob lb i)) (option_map (fun b => b + feas) (ob ub i)) (zn 0 x i)) /\
  (forall i, (0 <= i < nC)%Z -> within (option_map (fun b => b - feas) (ob lbA i)) (option_map (fun b => b + feas) (ob ubA i)) (Ax q (zn 0 x) i)).
Proof.
  intros nV nC H g A lb ub lbA ubA x y wsB wsC idH stat feas cmpl He Hz Ha HwB HwC E q.
  destruct (kkt_call nV nC H g A lb ub lbA ubA x y idH wsB wsC stat feas cmpl He Hz Ha HwB HwC E) as (_ & (I0 & I1 & I2) & _).
  fold q in I1, I2.
  assert (Bb : forall i, (0 <= i < nV)%Z -> within (option_map (fun b => b - feas) (ob lb i)) (option_map (fun b => b + feas) (ob ub i)) (zn 0 x i)).
  { intros i Hi. split; intros b Eb.
    - destruct (ob lb i) as [b'|] eqn:E1; [|discriminate]. injection Eb as <-.
      assert (b' - zn 0 x i <= feas); [|lra]. apply I1. left. exists i. split; [exact Hi|]. left. exists b'. auto.
    - destruct (ob ub i) as [b'|] eqn:E1; [|discriminate]. injection Eb as <-.
      assert (zn 0 x i - b' <= feas); [|lra]. apply I1. left. exists i. split; [exact Hi|]. right. exists b'. auto. }
  assert (Bc : forall i, (0 <= i < nC)%Z -> within (option_map (fun b => b - feas) (ob lbA i)) (option_map (fun b => b + feas) (ob ubA i)) (Ax q (zn 0 x) i)).
  { intros i Hi. split; intros b Eb.
    - destruct (ob lbA i) as [b'|] eqn:E1; [|discriminate]. injection Eb as <-.
      assert (b' - Ax q (zn 0 x) i <= feas); [|lra]. apply I1. right. exists i. split; [exact Hi|]. left. exists b'. auto.
    - destruct (ob ubA i) as [b'|] eqn:E1; [|discriminate]. injection Eb as <-.
      assert (Ax q (zn 0 x) i - b' <= feas); [|lra]. apply I1. right. exists i. split; [exact Hi|]. right. exists b'. auto. }
  split; [|split; assumption]. split.
  - intros ->. split.
    + intros i Hi. destruct (Bb i Hi) as [B1 B2]. cbn [q q_nV q_lb q_ub problem] in *.
      split; intros b Eb; [specialize (B1 (b - 0))|specialize (B2 (b + 0))]; rewrite Eb in *; cbn [option_map] in *;
        [specialize (B1 eq_refl); lra|specialize (B2 eq_refl); lra].
    + intros i Hi. destruct (Bc i Hi) as [B1 B2]. cbn [q_lbA q_ubA] in *.
      split; intros b Eb; [specialize (B1 (b - 0))|specialize (B2 (b + 0))];
        change (ob lbA i) with (q_lbA q i) in *; change (ob ubA i) with (q_ubA q i) in *; rewrite Eb in *; cbn [option_map] in *;
        [specialize (B1 eq_refl); lra|specialize (B2 eq_refl); lra].
  - intros [F1 F2]. destruct I2 as [I2|I2]; [exact I2|].
    destruct I2 as [(i & Hi & V)|(i & Hi & V)].
    + destruct (F1 i Hi) as [W1 W2]. destruct V as [(b & Eb & ->)|(b & Eb & ->)]; [specialize (W1 b Eb)|specialize (W2 b Eb)]; lra.
    + destruct (F2 i Hi) as [W1 W2]. destruct V as [(b & Eb & ->)|(b & Eb & ->)]; [specialize (W1 b Eb)|specialize (W2 b Eb)]; lra.
Qed.

(** Zero residuals and no multiplier inside the tolerance band: a global solution. *)
Theorem C13_zero_certifies : forall nV nC (H g A lb ub lbA ubA : option (list R)) (x y : list R) idH,
  0 <= eps -> 0 <= zero < 1 ->
  args_ok nV nC H g A lb ub lbA ubA x y ->
  let q := problem nV nC H g A lb ub lbA ubA idH in
  symmetric q -> psd q ->
  (forall i, (0 <= i < nV)%Z -> supported (q_lb q i) (q_ub q i) (zn 0 y i) (1000 * eps)) ->
  (forall i, (0 <= i < nC)%Z -> supported (q_lbA q i) (q_ubA q i) (zn 0 y (nV + i)) (1000 * eps)) ->
  (forall i, (0 <= i < nV + nC)%Z -> zn 0 y i = 0 \/ 1000 * eps < Rabs (zn 0 y i)) ->
  getKktViolation (N := N) nV nC H g A lb ub lbA ubA x y None None idH = Ok (0, 0, 0) ->
  minimiser q (zn 0 x).
Proof.
  intros nV nC H g A lb ub lbA ubA x y idH He Hz Ha q S P Sb Sc By E.
  destruct (kkt_call nV nC H g A lb ub lbA ubA x y idH None None 0 0 0 He Hz Ha) as ((_ & I1 & _) & _ & (_ & I3 & _)); auto;
    try (intros l; discriminate).
  destruct (C14_feasibility_residual nV nC H g A lb ub lbA ubA x y None None idH 0 0 0 He Hz Ha) as [[F _] _]; auto;
    try (intros l; discriminate).
  fold q in I1, I3. destruct Ha.
  assert (C : forall l u v yi, supported l u yi (1000 * eps) -> yi = 0 \/ 1000 * eps < Rabs yi ->
    (forall b, l = Some b -> 1000 * eps < yi -> Rabs ((v - b) * yi) <= 0) ->
    (forall b, u = Some b -> yi < - (1000 * eps) -> Rabs ((v - b) * yi) <= 0) -> complementary l u v yi).
  { intros l u v yi [S1 S2] B H1 H2. split; intros L.
    - assert (1000 * eps < yi) by (destruct B as [->|B]; [lra|rewrite Rabs_right in B by lra; lra]).
      destruct l as [b|]; [|now contradiction S1]. specialize (H1 b eq_refl ltac:(lra)). f_equal.
      apply Rabs_le_inv' in H1. nra.
    - assert (yi < - (1000 * eps)) by (destruct B as [->|B]; [lra|rewrite Rabs_left in B by lra; lra]).
      destruct u as [b|]; [|now contradiction S2]. specialize (H2 b eq_refl ltac:(lra)). f_equal.
      apply Rabs_le_inv' in H2. nra. }
  apply (kkt_minimiser q (zn 0 x) (zn 0 y) (fun j => zn 0 y (nV + j))); auto.
  split; [auto|]. split; [|split].
  - intros i Hi. assert (L : Rabs (stationarity q (zn 0 x) (zn 0 y) (fun j => zn 0 y (nV + j)) i) <= 0).
    { apply I1. exists i. split; [exact Hi|reflexivity]. }
    apply Rabs_le_inv' in L. lra.
  - intros i Hi. apply C; auto.
    + apply By. cbn [q q_nV problem] in Hi. lia.
    + intros b Eb L. apply I3. left. exists i. split; [exact Hi|]. left. exists b. auto.
    + intros b Eb L. apply I3. left. exists i. split; [exact Hi|]. right. exists b. auto.
  - intros i Hi. apply C; auto.
    + apply By. cbn [q q_nC problem] in Hi. lia.
    + intros b Eb L. apply I3. right. exists i. split; [exact Hi|]. left. exists b. auto.
    + intros b Eb L. apply I3. right. exists i. split; [exact Hi|]. right. exists b. auto.
Qed.

(** Without those conditions zero residuals certify nothing: (a) a multiplier
    below 1000 EPS is not compared with its bound; (b) a multiplier of a bound
    that was not passed is not reported; (c) with a working set argument the
    sign of a multiplier is not checked. *)
Definition zero_residual (H g lb ub wsB : option (list R)) (x y : list R) : Prop :=
  getKktViolation (N := N) 1 0 H g None lb ub None None x y wsB None false = Ok (0, 0, 0) /\
  let q := problem 1 0 H g None lb ub None None false in
  symmetric q /\ psd q /\ ~ minimiser q (zn 0 x).

Ltac z1 := repeat match goal with |- context [zn 0 [?a] 0] => change (zn 0 [a] 0) with a end.
Lemma rsum01 f : rsum 0 1 f = f 0%Z.
Proof. rewrite rsum_first, rsum_empty by lia. lra. Qed.

Lemma lp1 (g : R) lb ub : let q := problem 1 0 None (Some [g]) None lb ub None None false in
  symmetric q /\ psd q /\ forall x, objective q x = g * x 0%Z.
Proof.
  cbv zeta. split; [|split].
  - intros i j _ _. reflexivity.
  - intros v. cbn [q_nV problem]. rewrite rsum01. unfold Hx. cbn [q_nV q_H problem]. rewrite rsum01. lra.
  - intros x. unfold objective, Hx. cbn [q_nV q_H q_g problem]. rewrite !rsum01. change (zn 0 [g] 0) with g. lra.
Qed.

Theorem C13_zero_residual_refuted : 0 < eps -> 0 <= zero < 1 ->
  zero_residual None (Some [1000 * eps]) (Some [0]) (Some [2]) None [1] [1000 * eps] /\
  zero_residual None (Some [1]) None None None [0] [1] /\
  zero_residual None (Some [-1]) (Some [0]) (Some [2]) (Some [-1]) [0] [-1].
Proof.
  intros He Hz.
  assert (E1 : forall n l, zlen l = n -> enough n (Some l)) by (intros n l <- l' E; injection E as <-; lia).
  assert (E0 : forall n, enough n None) by (intros n l; discriminate).
  assert (K : forall (g : R) lb ub wsB (x0 y0 : R), enough 1 lb -> enough 1 ub -> enough 1 wsB -> g = y0 ->
    (forall b, ob lb 0 = Some b -> b <= x0) -> (forall b, ob ub 0 = Some b -> x0 <= b) ->
    (forall b, ob lb 0 = Some b -> actL eps zero wsB 0 y0 -> (x0 - b) * y0 = 0) ->
    (forall b, ob ub 0 = Some b -> actU eps zero wsB 0 y0 -> (x0 - b) * y0 = 0) ->
    getKktViolation (N := N) 1 0 None (Some [g]) None lb ub None None [x0] [y0] wsB None false = Ok (0, 0, 0)).
  { intros g lb ub wsB x0 y0 Hl Hu Hw Eg F1 F2 C1 C2.
    destruct (C13_residuals eps zero infty (Rlt_le _ _ He) Hz 1 0 None (Some [g]) None lb ub None None wsB None [x0] [y0] false)
      as (s & f & c & E & (S0 & S1 & S2) & (Q0 & Q1 & Q2) & (P0 & P1 & P2)); auto; try lia; try (unfold zlen; cbn; lia).
    assert (Es : s = 0).
    { destruct S2 as [S2|(i & Hi & ->)]; [exact S2|]. replace i with 0%Z by lia.
      unfold stationarity, Hx. cbn [q_nV q_nC q_H q_g q_A problem]. rewrite rsum01, (rsum_empty 0 0) by lia.
      change (zn 0 [g] 0) with g. change (zn 0 [y0] 0) with y0.
      replace (g - y0 + 0 * zn 0 [x0] 0 - 0) with 0 by lra. apply Rabs_R0. }
    assert (Ef : f = 0).
    { destruct Q2 as [Q2|[(i & Hi & V)|(i & Hi & _)]]; [exact Q2| |lia]. replace i with 0%Z in V by lia.
      change (zn 0 [x0] 0) with x0 in V. destruct V as [(b & Eb & V)|(b & Eb & V)]; cbn in Eb; [specialize (F1 b Eb)|specialize (F2 b Eb)]; lra. }
    assert (Ec : c = 0).
    { destruct P2 as [P2|[(i & Hi & V)|(i & Hi & _)]]; [exact P2| |lia]. replace i with 0%Z in V by lia.
      change (zn 0 [x0] 0) with x0 in V. change (zn 0 [y0] 0) with y0 in V.
      destruct V as [(b & Eb & L & V)|(b & Eb & L & V)]; cbn in Eb; rewrite V; [rewrite (C1 b Eb L)|rewrite (C2 b Eb L)]; apply Rabs_R0. }
    subst s f c. exact E. }
  split; [|split].
  - split.
    + apply K; auto; cbn; try (intros b [= <-]; z1; lra); unfold actL, actU; intros b [= <-] L; lra.
    + destruct (lp1 (1000 * eps) (Some [0]) (Some [2])) as (S & P & O). split; [exact S|]. split; [exact P|].
      intros [_ M]. specialize (M (fun _ => 0)). rewrite !O in M. change (zn 0 [1] 0) with 1 in M.
      assert (F : 1000 * eps * 1 <= 1000 * eps * 0); [apply M|lra].
      split; intros i Hi; [|cbn in Hi; lia]. cbn in Hi. replace i with 0%Z by lia. split; intros b [= <-]; z1; lra.
  - split.
    + apply K; auto; cbn; try (intros b; discriminate); unfold actL, actU; intros b; discriminate.
    + destruct (lp1 1 None None) as (S & P & O). split; [exact S|]. split; [exact P|].
      intros [_ M]. specialize (M (fun _ => -1)). rewrite !O in M. change (zn 0 [0] 0) with 0 in M.
      assert (F : 1 * 0 <= 1 * -1); [apply M|lra].
      split; intros i Hi; [|cbn in Hi; lia]. split; intros b; discriminate.
  - split.
    + apply K; auto; cbn; try (intros b [= <-]; z1; lra).
      intros b [= <-] L. exfalso. change (zn 0 [-1] 0) with (-1) in L. apply Rabs_le_inv' in L. lra.
    + destruct (lp1 (-1) (Some [0]) (Some [2])) as (S & P & O). split; [exact S|]. split; [exact P|].
      intros [_ M]. specialize (M (fun _ => 1)). rewrite !O in M. change (zn 0 [0] 0) with 0 in M.
      assert (F : -1 * 0 <= -1 * 1); [apply M|lra].
      split; intros i Hi; [|cbn in Hi; lia]. cbn in Hi. replace i with 0%Z by lia. split; intros b [= <-]; z1; lra.
Qed.
End Certify.

(** ** C17: norms *)

Section Norms.
Variables eps zero infty : R.
Notation N := (RNumT eps zero infty).

Definition norm2 (n : Z) (v : Z -> R) : R := sqrt (rsum 0 n (fun i => v i * v i)).
Definition norm1 (n : Z) (v : Z -> R) : R := rsum 0 n (fun i => Rabs (v i)).

(** The code computes these norms, for pointers into a larger array as well. *)
Theorem C17_getNorm : forall (v : list R) off n t, (0 <= off)%Z -> (0 <= n)%Z -> (off + n <= zlen v)%Z ->
  getNorm (N := N) v off n t =
    Ok (if (t =? 2)%Z then norm2 n (fun i => zn 0 v (off + i))
        else if (t =? 1)%Z then norm1 n (fun i => zn 0 v (off + i)) else - infty).
Proof.
  intros v off n t H0 Hn Hl. unfold getNorm. rcar. destruct (t =? 2)%Z; [|destruct (t =? 1)%Z].
  - rewrite (sum_loop 0 n _ (fun i => zn 0 v (off + i) * zn 0 v (off + i))); auto.
    + cbn [bind]. rnum. unfold norm2. do 2 f_equal. apply Rplus_0_l.
    + intros i s Hi. rewrite (rd_ok 0) by lia. reflexivity.
  - rewrite (sum_loop 0 n _ (fun i => Rabs (zn 0 v (off + i)))); auto.
    + unfold norm1. f_equal. apply Rplus_0_l.
    + intros i s Hi. rewrite (rd_ok 0) by lia. reflexivity.
  - reflexivity.
Qed.

Lemma sumsq_nonneg n (v : Z -> R) : 0 <= rsum 0 n (fun i => v i * v i).
Proof. apply lsum_nonneg. intros. apply Rle_0_sqr. Qed.

Theorem C17_norm_axioms : forall n (u v : Z -> R) (c : R),
  (0 <= norm2 n v /\ 0 <= norm1 n v) /\
  (norm2 n v = 0 <-> forall i, (0 <= i < n)%Z -> v i = 0) /\
  (norm1 n v = 0 <-> forall i, (0 <= i < n)%Z -> v i = 0) /\
  norm2 n (fun i => u i + v i) <= norm2 n u + norm2 n v /\
  norm1 n (fun i => u i + v i) <= norm1 n u + norm1 n v /\
  norm2 n (fun i => c * v i) = Rabs c * norm2 n v /\
  norm1 n (fun i => c * v i) = Rabs c * norm1 n v.
Proof.
  intros n u v c. split; [|split; [|split; [|split; [|split; [|split]]]]].
  - split; [apply sqrt_pos|]. apply lsum_nonneg. intros. apply Rabs_pos.
  - unfold norm2. split.
    + intros E i Hi. apply sqrt_eq_0 in E; [|apply sumsq_nonneg].
      assert (Z : v i * v i = 0).
      { apply (lsum_nonneg_0 _ _ (fun i _ => Rle_0_sqr (v i)) E i). now apply In_zseq. }
      nra.
    + intros H. rewrite rsum_0; [apply sqrt_0|]. intros i Hi. rewrite H by assumption. ring.
  - unfold norm1. split.
    + intros E i Hi.
      assert (Z : Rabs (v i) = 0).
      { apply (lsum_nonneg_0 _ (fun i => Rabs (v i)) (fun i _ => Rabs_pos (v i)) E i). now apply In_zseq. }
      destruct (Req_dec (v i) 0) as [?|D]; [assumption|]. apply Rabs_no_R0 in D. contradiction.
    + intros H. apply rsum_0. intros i Hi. rewrite H by assumption. apply Rabs_R0.
  - unfold norm2. set (a := rsum 0 n (fun i => u i * u i)). set (b := rsum 0 n (fun i => v i * v i)).
    set (k := rsum 0 n (fun i => u i * v i)).
    assert (Ha : 0 <= a) by apply sumsq_nonneg. assert (Hb : 0 <= b) by apply sumsq_nonneg.
    assert (E : rsum 0 n (fun i => (u i + v i) * (u i + v i)) = a + 2 * k + b).
    { unfold a, b, k, rsum. rewrite <- lsum_scal, <- lsum_plus, <- lsum_plus. apply lsum_ext. intros. ring. }
    rewrite E. assert (CS : k * k <= a * b) by apply lsum_cauchy_schwarz.
    assert (Hk : k <= sqrt a * sqrt b).
    { rewrite <- sqrt_mult by assumption. destruct (Rle_dec k 0) as [L|L].
      - eapply Rle_trans; [exact L|apply sqrt_pos].
      - rewrite <- (sqrt_square k) by lra. now apply sqrt_le_1_alt. }
    rewrite <- (sqrt_square (sqrt a + sqrt b)).
    + apply sqrt_le_1_alt. replace ((sqrt a + sqrt b) * (sqrt a + sqrt b))
        with (sqrt a * sqrt a + 2 * (sqrt a * sqrt b) + sqrt b * sqrt b) by ring.
      rewrite !sqrt_sqrt by assumption. lra.
    + pose proof (sqrt_pos a). pose proof (sqrt_pos b). lra.
  - unfold norm1, rsum. rewrite <- lsum_plus. apply lsum_le. intros. apply Rabs_triang.
  - unfold norm2. rewrite <- sqrt_Rsqr_abs. rewrite <- sqrt_mult; [|apply Rle_0_sqr|apply sumsq_nonneg].
    f_equal. unfold rsum, Rsqr. rewrite <- lsum_scal. apply lsum_ext. intros. ring.
  - unfold norm1, rsum. rewrite <- lsum_scal. apply lsum_ext. intros. apply Rabs_mult.
Qed.

(** ** C16: normaliseConstraints *)

Definition row (nV : Z) (A : list R) (i : Z) : Z -> R := fun j => zn 0 A (i * nV + j).
Definition normt (t n : Z) (v : Z -> R) : R := if (t =? 2)%Z then norm2 n v else norm1 n v.

(** What happens to one constraint. *)
Definition row_done (t nV : Z) (A : list R) (lbA ubA : option (list R)) (A' : list R) (lbA' ubA' : option (list R)) (i : Z) : Prop :=
  let c := normt t nV (row nV A i) in
  if Rltb eps c then
    (forall j, (0 <= j < nV)%Z -> row nV A' i j = row nV A i j / c) /\
    ob lbA' i = option_map (fun b => b / c) (ob lbA i) /\ ob ubA' i = option_map (fun b => b / c) (ob ubA i)
  else
    (forall j, (0 <= j < nV)%Z -> row nV A' i j = if (t =? 1)%Z then 1 / IZR nV else 1 / sqrt (IZR nV)) /\
    ob lbA' i = option_map (fun _ => - infty) (ob lbA i) /\ ob ubA' i = option_map (fun _ => infty) (ob ubA i).

Lemma norm_bound_spec (b : option (list R)) i f n : (0 <= i < n)%Z -> enough n b ->
  exists b', norm_bound (N := N) b i f = Ok b' /\ enough n b' /\
    forall k, (0 <= k < n)%Z -> ob b' k = if (k =? i)%Z then option_map f (ob b i) else ob b k.
Proof.
  intros Hi Hb. unfold norm_bound. rcar. destruct b as [l|].
  - rcar. pose proof (Hb _ eq_refl) as Hl. rewrite (rd_ok 0) by lia. cbn [bind]. rewrite wr_ok by lia. cbn [bind].
    eexists. split; [reflexivity|]. split.
    + intros l' [= <-]. rewrite zlen_zupd. exact Hl.
    + intros k Hk. cbn [ob option_map]. rewrite zn_zupd by lia. now destruct (k =? i)%Z.
  - eexists. split; [reflexivity|]. split; [intros l'; discriminate|]. intros k _. now destruct (k =? i)%Z.
Qed.

Lemma row_bound i j n m : (0 <= i < n)%Z -> (0 <= j < m)%Z -> (0 <= i * m + j < n * m)%Z.
Proof. intros. nia. Qed.

Lemma row_disj m i j i' j' : (0 <= j < m)%Z -> (0 <= j' < m)%Z -> i <> i' ->
  (i * m + j <> i' * m + j')%Z /\ ((i' * m <=? i * m + j)%Z && (i * m + j <? i' * m + m)%Z = false).
Proof.
  intros Hj Hj' Hne.
  assert (((i + 1) * m <= i' * m \/ (i' + 1) * m <= i * m)%Z).
  { destruct (Z.lt_total i i') as [L|[L|L]]; [left|congruence|right]; apply Z.mul_le_mono_nonneg_r; lia. }
  split; [lia|].
  destruct (Z.leb_spec (i' * m) (i * m + j)), (Z.ltb_spec (i * m + j) (i' * m + m)); auto. exfalso. lia.
Qed.

(** Every constraint is either divided by its norm or, when that norm is at most
    EPS (which includes every unsupported norm type), replaced by a dummy. *)
Theorem C16_rows : forall t nV nC (A : list R) (lbA ubA : option (list R)),
  (0 < nV)%Z -> (0 < nC)%Z -> (nC * nV <= zlen A)%Z -> enough nC lbA -> enough nC ubA -> (t = 1 \/ t = 2)%Z ->
  exists A' lbA' ubA',
    normaliseConstraints (N := N) nV nC (Some A) lbA ubA t = Ok (SUCCESSFUL_RETURN, (Some A', lbA', ubA')) /\
    zlen A' = zlen A /\
    forall i, (0 <= i < nC)%Z -> row_done t nV A lbA ubA A' lbA' ubA' i.
Proof.
  intros t nV nC A lbA ubA HnV HnC HA Hl Hu Ht. unfold normaliseConstraints.
  destruct (Z.leb_spec nV 0); [lia|]. destruct (Z.leb_spec nC 0); [lia|]. cbn [orb]. rcar.
  match goal with |- context [for_up 0 nC ?b ?i] => set (body := b); set (init := i) end.
  assert (W : wp (for_up 0 nC body init) (fun s => zlen (fst (fst s)) = zlen A /\ enough nC (snd (fst s)) /\ enough nC (snd s) /\
    forall i, (0 <= i < nC)%Z -> row_done t nV A lbA ubA (fst (fst s)) (snd (fst s)) (snd s) i)).
  { apply wp_for_up with (I := fun k s => zlen (fst (fst s)) = zlen A /\ enough nC (snd (fst s)) /\ enough nC (snd s) /\
      (forall i, (0 <= i < k)%Z -> row_done t nV A lbA ubA (fst (fst s)) (snd (fst s)) (snd s) i) /\
      (forall i, (k <= i < nC)%Z -> (forall j, (0 <= j < nV)%Z -> row nV (fst (fst s)) i j = row nV A i j) /\
         ob (snd (fst s)) i = ob lbA i /\ ob (snd s) i = ob ubA i)); [lia| | |].
    - unfold init. cbn [fst snd]. repeat split; auto. intros i Hi; lia.
    - intros i [[B l] u] Hi (L0 & L1 & L2 & D & U). cbn [fst snd] in *. unfold body.
      destruct (U i ltac:(lia)) as (Ur & Ul & Uu).
      assert (Hrow : (0 <= i * nV /\ i * nV + nV <= zlen B)%Z) by nia.
      assert (EN : getNorm (N := N) B (i * nV) nV t = Ok (normt t nV (row nV A i))).
      { rewrite C17_getNorm by lia. f_equal. unfold normt. destruct Ht as [ -> | -> ]; cbn [Z.eqb]; cbn.
        - unfold norm1. apply rsum_ext. intros j Hj. f_equal. apply Ur. exact Hj.
        - unfold norm2. f_equal. apply rsum_ext. intros j Hj. f_equal; apply Ur; exact Hj. }
      rcar. rewrite EN. cbn [bind]. set (c := normt t nV (row nV A i)) in *. rnum.
      assert (FIN : forall (B' : list R) (fl fu : R -> R) (v : Z -> R),
        zlen B' = zlen B ->
        (forall k, (0 <= k)%Z -> zn 0 B' k = if ((i * nV <=? k) && (k <? i * nV + nV))%Z then v (k - i * nV)%Z else zn 0 B k) ->
        ((if Rltb eps c then
          (forall j, (0 <= j < nV)%Z -> v j = row nV A i j / c) /\
          option_map fl (ob lbA i) = option_map (fun b => b / c) (ob lbA i) /\ option_map fu (ob ubA i) = option_map (fun b => b / c) (ob ubA i)
        else
          (forall j, (0 <= j < nV)%Z -> v j = if (t =? 1)%Z then 1 / IZR nV else 1 / sqrt (IZR nV)) /\
          option_map fl (ob lbA i) = option_map (fun _ => - infty) (ob lbA i) /\ option_map fu (ob ubA i) = option_map (fun _ => infty) (ob ubA i))) ->
        wp (l' <- norm_bound (N := N) l i fl ;; u' <- norm_bound (N := N) u i fu ;; Ok (B', l', u'))
          (fun s => zlen (fst (fst s)) = zlen A /\ enough nC (snd (fst s)) /\ enough nC (snd s) /\
            (forall i', (0 <= i' < i + 1)%Z -> row_done t nV A lbA ubA (fst (fst s)) (snd (fst s)) (snd s) i') /\
            (forall i', (i + 1 <= i' < nC)%Z -> (forall j, (0 <= j < nV)%Z -> row nV (fst (fst s)) i' j = row nV A i' j) /\
               ob (snd (fst s)) i' = ob lbA i' /\ ob (snd s) i' = ob ubA i'))).
      { intros B' fl fu v LB VB SP.
        destruct (norm_bound_spec l i fl nC Hi L1) as (l' & El & L1' & Ol). rewrite El. cbn [bind].
        destruct (norm_bound_spec u i fu nC Hi L2) as (u' & Eu & L2' & Ou). rewrite Eu. cbn [bind wp fst snd].
        split; [congruence|]. split; [assumption|]. split; [assumption|].
        assert (Other : forall i', (0 <= i' < nC)%Z -> i' <> i ->
          (forall j, (0 <= j < nV)%Z -> row nV B' i' j = row nV B i' j) /\ ob l' i' = ob l i' /\ ob u' i' = ob u i').
        { intros i' Hi' Hne. split; [|split].
          - intros j Hj. unfold row. pose proof (row_bound i' j nC nV Hi' Hj). rewrite VB by lia.
            destruct (row_disj nV i' j i j Hj Hj Hne) as [_ ->]. reflexivity.
          - rewrite Ol by assumption. destruct (Z.eqb_spec i' i); [congruence|reflexivity].
          - rewrite Ou by assumption. destruct (Z.eqb_spec i' i); [congruence|reflexivity]. }
        split.
        - intros i' Hi'. destruct (Z.eq_dec i' i) as [->|Hne].
          + unfold row_done. fold c. rewrite Ol, Ou, Z.eqb_refl by assumption. rewrite Ul, Uu.
            assert (VR : forall j, (0 <= j < nV)%Z -> row nV B' i j = v j).
            { intros j Hj. unfold row. rewrite VB by nia.
              destruct (Z.leb_spec (i * nV) (i * nV + j)), (Z.ltb_spec (i * nV + j) (i * nV + nV)); try lia. cbn [andb].
              f_equal. lia. }
            destruct (Rltb eps c); destruct SP as (V1 & V2 & V3); (split; [|auto]); intros j Hj; rewrite VR by assumption; auto.
          + destruct (Other i' ltac:(lia) Hne) as (O1 & O2 & O3). specialize (D i' ltac:(lia)).
            unfold row_done in *. rewrite O2, O3.
            destruct (Rltb eps _); destruct D as (D1 & D2); (split; [|exact D2]); intros j Hj; rewrite O1 by assumption; auto.
        - intros i' Hi'. destruct (Other i' ltac:(lia) ltac:(lia)) as (O1 & O2 & O3).
          destruct (U i' ltac:(lia)) as (U1 & U2 & U3). rewrite O2, O3. split; [|auto].
          intros j Hj. rewrite O1 by assumption. auto. }
      destruct (Rltb_spec eps c) as [Lc|Lc].
      + destruct (fill_loop 0 (fun jj A0 => a <- rd A0 (i * nV + jj) ;; wr A0 (i * nV + jj) (a / c))
          (fun _ a => a / c) (i * nV) 0 nV B) as (B' & EB & LB & VB).
        { lia. } { intros _. lia. }
        { intros j s Hj Hs. rewrite (rd_ok 0) by lia. cbn [bind]. now rewrite wr_ok by lia. }
        rewrite EB. cbn [bind].
        apply (FIN B' (fun v => v / c) (fun v => v / c) (fun j => zn 0 B (i * nV + j) / c)); auto.
        * intros k Hk. rewrite VB by assumption. rewrite Z.add_0_r. destruct (_ && _)%bool; [|reflexivity].
          do 2 f_equal. lia.
        * split; [|auto]. intros j Hj. unfold Rdiv. f_equal. apply Ur. exact Hj.
      + destruct (fill_loop 0 (fun jj A0 => wr A0 (i * nV + jj) (if (t =? 1)%Z then 1 / Rlit nV 0 else 1 / sqrt (Rlit nV 0)))
          (fun _ _ => if (t =? 1)%Z then 1 / IZR nV else 1 / sqrt (IZR nV)) (i * nV) 0 nV B) as (B' & EB & LB & VB).
        { lia. } { intros _. lia. }
        { intros j s Hj Hs. rewrite wr_ok by lia. replace (Rlit nV 0) with (IZR nV) by (unfold Rlit; cbn; f_equal; lia).
          reflexivity. }
        unfold n_of. rnum. rewrite EB. cbn [bind].
        apply (FIN B' (fun _ => - infty) (fun _ => infty) (fun _ => if (t =? 1)%Z then 1 / IZR nV else 1 / sqrt (IZR nV))); auto.
        intros k Hk. rewrite VB by assumption. rewrite Z.add_0_r. reflexivity.
    - intros [[B l] u] (L0 & L1 & L2 & D & U). auto. }
  destruct (wp_inv _ _ W) as ([[A' l'] u'] & E & L0 & L1 & L2 & D). rewrite E. cbn [bind fst snd] in *.
  exists A', l', u'. auto.
Qed.

(** Feasible set and norms, when no row is negligible. *)
Theorem C16_feasible_set : forall t nV nC (A : list R) (lbA ubA : option (list R)),
  0 <= eps -> (0 < nV)%Z -> (0 < nC)%Z -> (nC * nV <= zlen A)%Z -> enough nC lbA -> enough nC ubA -> (t = 1 \/ t = 2)%Z ->
  (forall i, (0 <= i < nC)%Z -> eps < normt t nV (row nV A i)) ->
  exists A' lbA' ubA',
    normaliseConstraints (N := N) nV nC (Some A) lbA ubA t = Ok (SUCCESSFUL_RETURN, (Some A', lbA', ubA')) /\
    (forall i, (0 <= i < nC)%Z -> normt t nV (row nV A' i) = 1) /\
    forall x, feasible (problem nV nC None None (Some A') None None lbA' ubA' false) x <->
              feasible (problem nV nC None None (Some A) None None lbA ubA false) x.
Proof.
  intros t nV nC A lbA ubA He HnV HnC HA Hl Hu Ht Hn.
  destruct (C16_rows t nV nC A lbA ubA HnV HnC HA Hl Hu Ht) as (A' & l' & u' & E & L & D).
  exists A', l', u'. split; [exact E|].
  assert (D' : forall i, (0 <= i < nC)%Z -> let c := normt t nV (row nV A i) in 0 < c /\
    (forall j, (0 <= j < nV)%Z -> row nV A' i j = row nV A i j / c) /\
    ob l' i = option_map (fun b => b / c) (ob lbA i) /\ ob u' i = option_map (fun b => b / c) (ob ubA i)).
  { intros i Hi. specialize (D i Hi). unfold row_done in D. specialize (Hn i Hi). cbv zeta.
    rewrite Rltb_true in D by assumption. split; [lra|exact D]. }
  split.
  - intros i Hi. destruct (D' i Hi) as (Hc & Dr & _). set (c := normt t nV (row nV A i)) in *.
    destruct (C17_norm_axioms nV (fun _ => 0) (row nV A i) (/ c)) as (_ & _ & _ & _ & _ & S2 & S1).
    transitivity (normt t nV (fun j => / c * row nV A i j)).
    + unfold normt, norm2, norm1. destruct (t =? 2)%Z; [f_equal|]; apply rsum_ext; intros j Hj; rewrite Dr by assumption; unfold Rdiv;
        rewrite (Rmult_comm (row nV A i j)); reflexivity.
    + assert (Rabs (/ c) = / c) by (apply Rabs_right, Rle_ge, Rlt_le, Rinv_0_lt_compat; exact Hc).
      assert (K : / c * c = 1) by (apply Rinv_l; lra).
      unfold normt in *. destruct (t =? 2)%Z; [rewrite S2|rewrite S1]; rewrite H; exact K.
  - intros x.
    assert (G : forall i, (0 <= i < nC)%Z ->
      (within (ob l' i) (ob u' i) (Ax (problem nV nC None None (Some A') None None l' u' false) x i) <->
       within (ob lbA i) (ob ubA i) (Ax (problem nV nC None None (Some A) None None lbA ubA false) x i))).
    { intros i Hi. destruct (D' i Hi) as (Hc & Dr & Dl & Du). set (c := normt t nV (row nV A i)) in *.
      assert (EA : Ax (problem nV nC None None (Some A') None None l' u' false) x i =
                   / c * Ax (problem nV nC None None (Some A) None None lbA ubA false) x i).
      { unfold Ax. cbn [q_nV q_A problem]. unfold rsum. rewrite <- lsum_scal. apply lsum_ext. intros j Hj.
        apply In_zseq in Hj. fold (row nV A' i j). fold (row nV A i j).
        change (zn 0 A' (i * nV + j)) with (row nV A' i j). rewrite Dr by assumption. unfold Rdiv, row. ring. }
      rewrite EA, Dl, Du. set (v := Ax _ x i).
      assert (Hi0 : 0 < / c) by now apply Rinv_0_lt_compat.
      assert (M1 : forall b, b / c <= / c * v <-> b <= v).
      { intros b. unfold Rdiv. rewrite (Rmult_comm b). split; intros; [apply Rmult_le_reg_l with (/ c); assumption|apply Rmult_le_compat_l; lra]. }
      assert (M2 : forall b, / c * v <= b / c <-> v <= b).
      { intros b. unfold Rdiv. rewrite (Rmult_comm b). split; intros; [apply Rmult_le_reg_l with (/ c); assumption|apply Rmult_le_compat_l; lra]. }
      unfold within. split; intros [W1 W2]; split.
      - intros b Eb. rewrite Eb in W1. apply M1. apply W1. reflexivity.
      - intros b Eb. rewrite Eb in W2. apply M2. apply W2. reflexivity.
      - intros b Eb. destruct (ob lbA i) as [b0|]; [|discriminate]. injection Eb as <-. apply M1. auto.
      - intros b Eb. destruct (ob ubA i) as [b0|]; [|discriminate]. injection Eb as <-. apply M2. auto. }
    unfold feasible. cbn [q_nV q_nC q_lb q_ub q_lbA q_ubA problem ob option_map].
    split; intros [F1 F2]; (split; [exact F1|]); intros i Hi; apply G; auto.
Qed.

(** The property fails for an unsupported norm type and for small rows: the
    constraint x >= 5 (or eps/2 * x >= 1) disappears. *)
Theorem C16_feasible_set_refuted : 0 < eps < 1 -> 1 <= infty ->
  (normaliseConstraints (N := N) 1 1 (Some [1]) (Some [5]) None 3 = Ok (SUCCESSFUL_RETURN, (Some [1 / sqrt 1], Some [- infty], None)) /\
   ~ feasible (problem 1 1 None None (Some [1]) None None (Some [5]) None false) (fun _ => 0) /\
   feasible (problem 1 1 None None (Some [1 / sqrt 1]) None None (Some [- infty]) None false) (fun _ => 0)) /\
  (normaliseConstraints (N := N) 1 1 (Some [eps / 2]) (Some [1]) None 1 = Ok (SUCCESSFUL_RETURN, (Some [1 / 1], Some [- infty], None)) /\
   ~ feasible (problem 1 1 None None (Some [eps / 2]) None None (Some [1]) None false) (fun _ => 0) /\
   feasible (problem 1 1 None None (Some [1 / 1]) None None (Some [- infty]) None false) (fun _ => 0)).
Proof.
  intros He Hi.
  assert (F : forall a b, feasible (problem 1 1 None None (Some [a]) None None (Some [b]) None false) (fun _ => 0) <-> b <= 0).
  { intros a b. unfold feasible. cbn [q_nV q_nC q_lb q_ub q_lbA q_ubA problem ob option_map].
    assert (E : Ax (problem 1 1 None None (Some [a]) None None (Some [b]) None false) (fun _ => 0) 0 = 0).
    { unfold Ax. cbn [q_nV q_A problem]. rewrite rsum01. ring. }
    split.
    - intros [_ F2]. destruct (F2 0%Z ltac:(lia)) as [W _]. specialize (W b eq_refl). rewrite E in W. exact W.
    - intros L. split; [intros; split; intros; discriminate|]. intros i Hi'. replace i with 0%Z by lia. rewrite E.
      split; [intros c [= <-]; exact L|intros; discriminate]. }
  split; (split; [|split]).
  - unfold normaliseConstraints, getNorm. cbn. rnum. rewrite Rltb_false by lra. reflexivity.
  - rewrite F. lra.
  - rewrite F. lra.
  - unfold normaliseConstraints. cbn [orb Z.leb Z.compare]. unfold for_up at 1. change (Z.to_nat (1 - 0)) with 1%nat. cbn [for_up_n].
    rewrite C17_getNorm by (unfold zlen; cbn; lia). change (1 =? 2)%Z with false. change (1 =? 1)%Z with true. cbv iota. cbn [bind].
    unfold norm1. rewrite rsum01. change (zn 0 [eps / 2] (0 * 1 + 0)) with (eps / 2). rnum.
    rewrite Rabs_right by lra. rewrite Rltb_false by lra. reflexivity.
  - rewrite F. lra.
  - rewrite F. lra.
Qed.
End Norms.

(** An Example for each statement above. *)
Example C17_example : getNorm (N := RNum) [7; 3; 4] 1 2 2 = Ok 5 /\ getNorm (N := RNum) [7; 3; -4] 1 2 1 = Ok 7.
Proof.
  unfold RNum. rewrite !C17_getNorm by (unfold zlen; cbn; lia). cbn [Z.eqb Z.compare]. cbn.
  unfold norm2, norm1. rewrite !(rsum_first 0 2), !(rsum_first (0 + 1) 2), !rsum_empty by lia.
  change (zn 0 [7; 3; 4] (1 + 0)) with 3. change (zn 0 [7; 3; 4] (1 + (0 + 1))) with 4.
  change (zn 0 [7; 3; -4] (1 + 0)) with 3. change (zn 0 [7; 3; -4] (1 + (0 + 1))) with (-4).
  split.
  - f_equal. replace (3 * 3 + (4 * 4 + 0)) with (5 * 5) by lra. apply sqrt_square. lra.
  - f_equal. rewrite Rabs_right, Rabs_left by lra. lra.
Qed.

Example C16_example : exists t nV nC (A : list R) lbA ubA, (0 < nV)%Z /\ (0 < nC)%Z /\ (nC * nV <= zlen A)%Z /\
  enough nC lbA /\ enough nC ubA /\ (t = 1 \/ t = 2)%Z /\
  (forall i, (0 <= i < nC)%Z -> 1 < normt t nV (row nV A i)).
Proof.
  exists 1%Z, 1%Z, 1%Z, [2], (Some [0]), None. repeat split; try (unfold zlen; cbn; lia).
  - intros l [= <-]. unfold zlen; cbn; lia.
  - intros l; discriminate.
  - intros i Hi. replace i with 0%Z by lia. unfold normt. cbn [Z.eqb Z.compare]. cbn. unfold norm1. rewrite rsum01.
    change (row 1 [2] 0 0) with 2. rewrite Rabs_right; lra.
Qed.

(** ** C56: readFromFile *)

Section Files.
Context {N : Num}.
Local Open Scope Z_scope.

Definition token (file : list (option N)) (k : Z) : option (option N) := nth_error file (Z.to_nat k).

Lemma skipn_nth {A} (l : list A) n : skipn n l = match nth_error l n with Some a => a :: skipn (S n) l | None => [] end.
Proof.
  revert l; induction n as [|n IH]; intros [|a l]; try reflexivity. cbn [skipn nth_error]. rewrite IH. reflexivity.
Qed.

(** The loop, when read k gives V k for k < lim and stops at lim. *)
Lemma read_gen (d : N) (data : list N) nrow ncol (file : list (option N)) (V : Z -> N) lim :
  0 <= nrow -> 0 <= ncol -> nrow * ncol <= zlen data -> 0 <= lim <= nrow * ncol ->
  (forall k, 0 <= k < lim -> token file k = Some (Some (V k)) \/ (token file k = None /\ 0 < k /\ V k = V (k - 1))) ->
  (lim < nrow * ncol -> token file lim = Some None) ->
  exists data', readFromFile data nrow ncol (Some file) =
      Ok (if lim <? nrow * ncol then RET_UNABLE_TO_READ_FILE else SUCCESSFUL_RETURN, data') /\
    zlen data' = zlen data /\ forall k, 0 <= k -> zn d data' k = if k <? lim then V k else zn d data k.
Proof.
  intros Hr Hc Hd Hlim HV Hstop.
  set (fine := fun (m : Z) (data' : list N) => zlen data' = zlen data /\ forall k, 0 <= k -> zn d data' k = if k <? m then V k else zn d data k).
  set (I := fun (m : Z) (s : list N * list (option N) * option N) => let '(data', file', fd) := s in
    m <= lim /\ fine m data' /\ file' = skipn (Z.to_nat m) file /\ (0 < m -> fd = Some (V (m - 1)))).
  set (J := fun (e : returnValue * list N) => lim < nrow * ncol /\ fst e = RET_UNABLE_TO_READ_FILE /\ fine lim (snd e)).
  assert (W : wp (readFromFile data nrow ncol (Some file))
    (fun e => fst e = (if lim <? nrow * ncol then RET_UNABLE_TO_READ_FILE else SUCCESSFUL_RETURN) /\ fine lim (snd e))).
  { unfold readFromFile. apply wp_bind.
    apply wp_forb_up with (I := fun i s => I (i * ncol) s) (J := J); [assumption| | | |].
    - unfold I. replace (0 * ncol) with 0 by lia. split; [lia|]. split; [|split; [reflexivity|lia]].
      split; [reflexivity|]. intros k Hk. destruct (Z.ltb_spec k 0); [lia|reflexivity].
    - intros i s Hi HI.
      apply wp_forb_up with (I := fun j s => I (i * ncol + j) s) (J := J); [assumption| | | |].
      + now rewrite Z.add_0_r.
      + clear s HI. intros j [[data' file'] fd] Hj (Hm & (HL & HF) & -> & Hfd).
        pose proof (row_bound i j nrow ncol Hi Hj) as Hb. set (m := i * ncol + j) in *.
        rewrite skipn_nth. change (nth_error file (Z.to_nat m)) with (token file m).
        assert (NEXT : forall v, m < lim -> v = V m ->
          wp (data'' <- wr data' m v ;; Ok (Next (E := returnValue * list N) (data'', skipn (S (Z.to_nat m)) file, Some v)))
            (fun c => match c with Next s' => I (i * ncol + (j + 1)) s' | Brk e => J e end)).
        { intros v Hlt ->. rewrite wr_ok by lia. cbn [bind wp]. unfold I.
          replace (i * ncol + (j + 1)) with (m + 1) by (unfold m; lia). split; [lia|]. split; [|split].
          - split; [now rewrite zlen_zupd|]. intros k Hk. rewrite zn_zupd by lia. rewrite HF by assumption.
            destruct (Z.eqb_spec k m) as [Ek|]; destruct (Z.ltb_spec k m), (Z.ltb_spec k (m + 1)); try lia; auto.
            now rewrite Ek.
          - f_equal. lia.
          - intros _. do 2 f_equal. lia. }
        destruct (Z.eq_dec m lim) as [Em|Em].
        * rewrite Em, Hstop by lia. cbn [fscanf Z.eqb wp]. unfold J. cbn [fst snd].
          split; [lia|]. split; [reflexivity|]. rewrite <- Em. split; assumption.
        * destruct (HV m ltac:(lia)) as [Ht|(Ht & H0 & HVe)]; rewrite Ht.
          -- cbn [fscanf Z.eqb]. apply NEXT; [lia|reflexivity].
          -- rewrite Hfd by assumption. cbn [fscanf Z.eqb].
             assert (ES : skipn (S (Z.to_nat m)) file = []).
             { unfold token in Ht. apply nth_error_None in Ht. apply skipn_all2. lia. }
             rewrite <- HVe. specialize (NEXT (V m)). rewrite ES in NEXT. apply NEXT; [lia|reflexivity].
      + intros s' H'. now replace ((i + 1) * ncol) with (i * ncol + ncol) by lia.
      + auto.
    - intros [[data' file'] fd] (Hm & HF & _). cbn [wp fst snd].
      replace lim with (nrow * ncol) by lia. rewrite Z.ltb_irrefl. split; [reflexivity|]. replace (nrow * ncol) with lim in HF |- * by lia. exact HF.
    - intros e (Hlt & He & HF). cbn [wp]. destruct (Z.ltb_spec lim (nrow * ncol)); [|lia]. auto. }
  apply wp_inv in W as ([rc data'] & E & Erc & HL & HF). cbn [fst snd] in *. subst rc. exists data'. auto.
Qed.

Variable d : N.
Variables (data : list N) (nrow ncol : Z) (file : list (option N)).
Hypothesis Hrow : 0 <= nrow.
Hypothesis Hcol : 0 <= ncol.
Hypothesis Hdata : nrow * ncol <= zlen data.

(** A file with enough numbers is read exactly. *)
Theorem C56_enough : forall V : Z -> N,
  (forall k, 0 <= k < nrow * ncol -> token file k = Some (Some (V k))) ->
  exists data', readFromFile data nrow ncol (Some file) = Ok (SUCCESSFUL_RETURN, data') /\ zlen data' = zlen data /\
    forall k, 0 <= k -> zn d data' k = if k <? nrow * ncol then V k else zn d data k.
Proof.
  intros V HV. destruct (read_gen d data nrow ncol file V (nrow * ncol)) as (data' & E & H); auto; try nia.
  rewrite Z.ltb_irrefl in E. eauto.
Qed.

(** A token that is no number among the requested ones is reported; the
    numbers before it have already been stored. *)
Theorem C56_unreadable : forall (V : Z -> N) p, 0 <= p < nrow * ncol ->
  (forall k, 0 <= k < p -> token file k = Some (Some (V k))) -> token file p = Some None ->
  exists data', readFromFile data nrow ncol (Some file) = Ok (RET_UNABLE_TO_READ_FILE, data') /\ zlen data' = zlen data /\
    forall k, 0 <= k -> zn d data' k = if k <? p then V k else zn d data k.
Proof.
  intros V p Hp HV Ht. destruct (read_gen d data nrow ncol file V p) as (data' & E & H); auto; try lia.
  rewrite (proj2 (Z.ltb_lt _ _)) in E by lia. eauto.
Qed.

(** A file that ends too early is not reported: the last number is repeated. *)
Theorem C56_short_file_refuted : forall V : Z -> N, 0 < zlen file < nrow * ncol ->
  (forall k, 0 <= k < zlen file -> token file k = Some (Some (V k))) ->
  exists data', readFromFile data nrow ncol (Some file) = Ok (SUCCESSFUL_RETURN, data') /\
    forall k, 0 <= k -> zn d data' k =
      if k <? zlen file then V k else if k <? nrow * ncol then V (zlen file - 1) else zn d data k.
Proof.
  intros V Hl HV.
  destruct (read_gen d data nrow ncol file (fun k => V (Z.min k (zlen file - 1))) (nrow * ncol)) as (data' & E & HL & H); auto; try lia.
  { intros k Hk. destruct (Z.ltb_spec k (zlen file)).
    - left. rewrite HV by lia. do 3 f_equal. lia.
    - right. split; [|split; [lia|f_equal; lia]]. unfold token. apply nth_error_None. unfold zlen in *. lia. }
  rewrite Z.ltb_irrefl in E. exists data'. split; [exact E|]. intros k Hk. rewrite H by assumption.
  destruct (Z.ltb_spec k (zlen file)), (Z.ltb_spec k (nrow * ncol)); try lia; auto; f_equal; lia.
Qed.

(** An empty file makes the code store an uninitialised variable. *)
Theorem C56_empty_file_refuted : 0 < nrow -> 0 < ncol -> readFromFile data nrow ncol (Some []) = UB.
Proof.
  intros. unfold readFromFile, forb_up. replace (Z.to_nat (nrow - 0)) with (S (Z.to_nat (nrow - 1))) by lia.
  replace (Z.to_nat (ncol - 0)) with (S (Z.to_nat (ncol - 1))) by lia. reflexivity.
Qed.

Theorem C56_no_file : readFromFile data nrow ncol None = Ok (RET_UNABLE_TO_OPEN_FILE, data).
Proof. reflexivity. Qed.
End Files.

Example C56_example :
  readFromFile (N := RNum) [0; 0; 0; 9] 1 3 (Some [Some 1; Some 2; Some 3]) = Ok (SUCCESSFUL_RETURN, [1; 2; 3; 9]) /\
  readFromFile (N := RNum) [0; 0; 0; 9] 1 3 (Some [Some 1; Some 2]) = Ok (SUCCESSFUL_RETURN, [1; 2; 2; 9]) /\
  readFromFile (N := RNum) [0; 0; 0; 9] 3 1 (Some [Some 1; None]) = Ok (RET_UNABLE_TO_READ_FILE, [1; 0; 0; 9]).
Proof. repeat split. Qed.

Print Assumptions C13_zero_certifies.
Print Assumptions C16_feasible_set.
Print Assumptions C17_norm_axioms.
Print Assumptions C56_short_file_refuted.
