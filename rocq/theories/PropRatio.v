(** C33: the ratio test.  Exact arithmetic, any tolerances with epsDen > 0. *)
From Verif Require Import Base Types Num Options Indexlist IndexlistProofs Loops RSum LinSpec SafeLib SubjectTo SubjectToProofs SubjectToProofs2
  Flipper PropFlipper Matrices MatSafe LinAlg QProblemB QPBSafe QPBSafe3 QPBX1 QPBSafe6 QPBEx.
Local Open Scope R_scope.

(** Specification: which (numerator, denominator) pairs limit the step, and by
    what.  An entry whose type is ST_EQUALITY never does. *)
Definition blocks (ty : SubjectToType) (v : SubjectToStatus) (nu de epsNum epsDen : R) : Prop :=
  ty <> ST_EQUALITY /\
  (((v = ST_LOWER \/ v = ST_INACTIVE) /\ epsDen <= de /\ epsNum <= nu) \/ (v = ST_UPPER /\ epsDen <= - de /\ epsNum <= - nu)).
(** t is the least of t0 and the ratios of P, and [at_] says where it is attained *)
Definition least_of {I} (P : I -> R -> Prop) (t0 t : R) : Prop :=
  t <= t0 /\ (forall i r, P i r -> t <= r) /\ (t = t0 \/ exists i, P i t).

Section Ratio.
Variables eps zero infty : R.
Notation N := (RNumT eps zero infty).

Definition blockp (idx : list Z) (st : subjectTo) (num den : list R) (epsNum epsDen : R) (p : Z) : Prop :=
  let ii := zn 0%Z idx p in
  blocks (zt (st_type st) ii) (zs (st_status st) ii) (zn 0 num p) (zn 0 den p) epsNum epsDen.

Lemma blocking_dec (nu de epsNum epsDen t : R) : isBlocking (N := N) nu de epsNum epsDen t = true <-> epsDen <= de /\ epsNum <= nu /\ nu < t * de.
Proof.
  unfold isBlocking. rnum. rewrite !andb_true_iff. unfold Rleb, Rltb.
  destruct (Rle_dec epsDen de), (Rle_dec epsNum nu), (Rlt_dec nu (t * de)); split; intros; try tauto; intuition discriminate.
Qed.
Lemma ratio_lt nu de t : 0 < de -> nu < t * de <-> nu / de < t.
Proof.
  intros H. split; intros K.
  - apply (Rmult_lt_reg_r de); [exact H|]. unfold Rdiv. rewrite Rmult_assoc, Rinv_l by lra. lra.
  - apply (Rmult_lt_compat_r de) in K; [|exact H]. unfold Rdiv in K. rewrite Rmult_assoc, Rinv_l in K by lra. lra.
Qed.

(** C33: performRatioTest.  t' is the minimum of t0 and all blocking ratios; the
    reported index attains it; if none is reported t' = t0. *)
Theorem C33_performRatioTest : forall n nIdx (idx : list Z) (st : subjectTo) l0 l1 (num den : list R) (epsNum epsDen t0 : R),
  st_wf st l0 l1 -> st_n st = n -> (0 <= nIdx <= zlen idx)%Z -> (forall p, (0 <= p < nIdx)%Z -> (0 <= zn 0%Z idx p < n)%Z) ->
  (nIdx <= zlen num)%Z -> (nIdx <= zlen den)%Z -> 0 < epsDen ->
  exists t' bc, performRatioTest (N := N) nIdx idx st num den epsNum epsDen t0 = Ok (t', bc) /\
    least_of (fun p r => (0 <= p < nIdx)%Z /\ blockp idx st num den epsNum epsDen p /\ r = zn 0 num p / zn 0 den p) t0 t' /\
    ((bc = (-1)%Z /\ t' = t0) \/
     (t' < t0 /\ exists p, (0 <= p < nIdx)%Z /\ bc = zn 0%Z idx p /\ blockp idx st num den epsNum epsDen p /\ t' = zn 0 num p / zn 0 den p)).
Proof.
  intros n nIdx idx st l0 l1 num den epsNum epsDen t0 WF Hn Hi Hr Hnu Hde He.
  cut (wp (performRatioTest (N := N) nIdx idx st num den epsNum epsDen t0) (fun '(t', bc) =>
    t' <= t0 /\ (forall p, (0 <= p < nIdx)%Z -> blockp idx st num den epsNum epsDen p -> t' <= zn 0 num p / zn 0 den p) /\
    ((bc = (-1)%Z /\ t' = t0) \/
     (t' < t0 /\ exists p, (0 <= p < nIdx)%Z /\ bc = zn 0%Z idx p /\ blockp idx st num den epsNum epsDen p /\ t' = zn 0 num p / zn 0 den p)))).
  { intros W. apply wp_inv in W as ([t' bc] & E & A & B & C). exists t', bc. split; [exact E|]. split; [|exact C].
    split; [exact A|]. split; [intros p r (P1 & P2 & ->); auto|].
    destruct C as [(_ & ->)|(_ & p & P1 & P2 & P3 & P4)]; [now left|right; exists p; auto]. }
  unfold performRatioTest. apply wp_for_up with (I := fun i '(t', bc) =>
    t' <= t0 /\ (forall p, (0 <= p < i)%Z -> blockp idx st num den epsNum epsDen p -> t' <= zn 0 num p / zn 0 den p) /\
    ((bc = (-1)%Z /\ t' = t0) \/
     (t' < t0 /\ exists p, (0 <= p < i)%Z /\ bc = zn 0%Z idx p /\ blockp idx st num den epsNum epsDen p /\ t' = zn 0 num p / zn 0 den p)));
    [lia| | |].
  - split; [lra|]. split; [intros; lia|now left].
  - intros i [t bc] Hi' (A & B & C).
    rewrite (rd_ok 0%Z) by lia. cbn [bind]. rewrite (getType_ok _ l0 l1 _ WF) by (rewrite Hn; auto). cbn [bind].
    assert (KEEP : (blockp idx st num den epsNum epsDen i -> t <= zn 0 num i / zn 0 den i) ->
      t <= t0 /\ (forall p, (0 <= p < i + 1)%Z -> blockp idx st num den epsNum epsDen p -> t <= zn 0 num p / zn 0 den p) /\
      ((bc = (-1)%Z /\ t = t0) \/ (t < t0 /\ exists p, (0 <= p < i + 1)%Z /\ bc = zn 0%Z idx p /\ blockp idx st num den epsNum epsDen p /\ t = zn 0 num p / zn 0 den p))).
    { intros K. split; [exact A|]. split.
      - intros p Hp Bp. destruct (Z.eq_dec p i) as [->|]; [|apply B; [lia|exact Bp]]. auto.
      - destruct C as [C|(C & p & P1 & P2 & P3 & P4)]; [now left|]. right. split; [exact C|]. exists p. split; [lia|auto]. }
    assert (TAKE : blockp idx st num den epsNum epsDen i -> zn 0 num i / zn 0 den i < t ->
      zn 0 num i / zn 0 den i <= t0 /\ (forall p, (0 <= p < i + 1)%Z -> blockp idx st num den epsNum epsDen p -> zn 0 num i / zn 0 den i <= zn 0 num p / zn 0 den p) /\
      ((zn 0%Z idx i = (-1)%Z /\ zn 0 num i / zn 0 den i = t0) \/ (zn 0 num i / zn 0 den i < t0 /\ exists p, (0 <= p < i + 1)%Z /\ zn 0%Z idx i = zn 0%Z idx p /\ blockp idx st num den epsNum epsDen p /\ zn 0 num i / zn 0 den i = zn 0 num p / zn 0 den p))).
    { intros Bi L. split; [lra|]. split.
      - intros p Hp Bp. destruct (Z.eq_dec p i) as [->|]; [lra|]. specialize (B p ltac:(lia) Bp). lra.
      - right. split; [lra|]. exists i. split; [lia|auto]. }
    destruct (zt (st_type st) (zn 0%Z idx i)) eqn:ET;
      match goal with |- wp (if ?b then _ else _) _ => let v := eval vm_compute in b in change b with v; cbn iota end;
      try (apply wp_ok; apply KEEP; intros [X _]; congruence).
    all: rewrite (getStatus_ok _ l0 l1 _ WF) by (rewrite Hn; auto); cbn [bind];
      destruct (zs (st_status st) (zn 0%Z idx i)) eqn:ES;
      try (apply wp_ok; apply KEEP; intros [_ [([X|X] & _)|(X & _)]]; congruence).
    all: rewrite (rd_ok (0:R) num) by lia; cbn [bind]; rewrite (rd_ok (0:R) den) by lia; cbn [bind].
    all: match goal with |- wp (if ?b then _ else _) _ => destruct b eqn:EB end; apply wp_ok.
    all: try (apply blocking_dec in EB; rnum in EB; destruct EB as (E1 & E2 & E3)).
    all: rnum.
    all: try (apply TAKE; [unfold blockp, blocks; rewrite ET, ES; split; [discriminate|]; rnum; tauto|]).
    all: try (apply ratio_lt; lra).
    all: try (replace (zn 0 num i / zn 0 den i) with ((- zn 0 num i) / (- zn 0 den i)) by (field; lra); apply ratio_lt; lra).
    all: apply KEEP; intros (_ & BB); rewrite ES in BB.
    all: apply Rnot_lt_le; intros L; apply Bool.not_true_iff_false in EB; apply EB, blocking_dec; rnum.
    all: try (destruct BB as [(_ & B1 & B2)|(X & _)]; [|discriminate X]; split; [exact B1|]; split; [exact B2|]; apply ratio_lt; [lra|exact L]).
    all: destruct BB as [([X|X] & _)|(_ & B1 & B2)]; [discriminate X|discriminate X|]; split; [exact B1|]; split; [exact B2|]; apply ratio_lt; [lra|].
    all: replace ((- zn 0 num i) / (- zn 0 den i)) with (zn 0 num i / zn 0 den i) by (field; lra); exact L.
  - intros [t' bc]; auto.
Qed.

(** ** The step of one homotopy iteration *)
(** What limits the step: the multiplier of an active bound (it would be removed),
    a lower bound of a free variable, an upper bound of a free variable. *)
Definition limits (s : qpb N) (d : deltas N) (l0 l1 : list Z) (e : Z * SubjectToStatus) (r : R) : Prop :=
  let o := q_opts s in
  let b (i : Z) (nu de : R) := blocks (zt (st_type (q_bounds s)) i) (zs (st_status (q_bounds s)) i) nu de (o_epsNum o) (o_epsDen o) in
  match e with
  | (i, ST_INACTIVE) => exists p, (0 <= p < zlen l1)%Z /\ i = zn 0%Z l1 p /\
      let nu := zn 0 (q_y s) i in let de := - zn 0 (dl_yFX d) p in b i nu de /\ r = nu / de
  | (i, ST_LOWER) => st_noLower (q_bounds s) = false /\ exists p, (0 <= p < zlen l0)%Z /\ i = zn 0%Z l0 p /\
      let nu := Rmax (zn 0 (q_x s) i - zn 0 (q_lb s) i) 0 in let de := zn 0 (dl_lb d) i - zn 0 (dl_xFR d) p in b i nu de /\ r = nu / de
  | (i, ST_UPPER) => st_noUpper (q_bounds s) = false /\ exists p, (0 <= p < zlen l0)%Z /\ i = zn 0%Z l0 p /\
      let nu := Rmax (zn 0 (q_ub s) i - zn 0 (q_x s) i) 0 in let de := zn 0 (dl_xFR d) p - zn 0 (dl_ub d) i in b i nu de /\ r = nu / de
  | _ => False
  end.

Lemma getMax_R (a b : R) : getMax (N := N) a b = Rmax a b.
Proof.
  rnum. unfold Rltb. destruct (Rlt_dec b a); unfold Rmax; destruct (Rle_dec a b); lra.
Qed.
Variable junk : Z -> list R.
Hypothesis J : junk_ok (N := N) junk.

Lemma primalNum_ok n (s : qpb N) l0 l1 up (num : list R) : qwf n s l0 l1 -> zlen num = n ->
  wp (primalNum s up num) (fun a => zlen a = n /\ forall p, (0 <= p < zlen l0)%Z -> let i := zn 0%Z l0 p in
    zn 0 a p = Rmax (if up : bool then zn 0 (q_ub s) i - zn 0 (q_x s) i else zn 0 (q_x s) i - zn 0 (q_lb s) i) 0).
Proof.
  intros W L. unfold primalNum. rewrite (w_nfr _ _ _ _ W). pose proof (w_len0 _ _ _ _ W).
  apply (wp_fill (0:R) (fun p => let i := zn 0%Z l0 p in
    Rmax (if up : bool then zn 0 (q_ub s) i - zn 0 (q_x s) i else zn 0 (q_x s) i - zn 0 (q_lb s) i) 0)); [unfold zlen in *; lia| |].
  - intros i a Hi La. unfold FR_idx. rewrite (rd_rep _ l0) by (auto; apply (w_rep0 _ _ _ _ W)). cbn [bind].
    assert (Hr : (0 <= zn 0%Z l0 i < n)%Z) by (apply (w_in0 _ _ _ _ W), zn_In; lia).
    rewrite (rd_ok (0:R) (q_x s)) by (pose proof (w_x _ _ _ _ W); rcar; lia). cbn [bind]. destruct up.
    + rewrite (rd_ok (0:R) (q_ub s)) by (pose proof (w_ub _ _ _ _ W); rcar; lia). cbn [bind]. rewrite getMax_R. apply wr_ok. lia.
    + rewrite (rd_ok (0:R) (q_lb s)) by (pose proof (w_lb _ _ _ _ W); rcar; lia). cbn [bind]. rewrite getMax_R. apply wr_ok. lia.
  - intros a La V _. split; [rcar; congruence|]. intros p Hp. cbv zeta. rcar. now rewrite V.
Qed.
Lemma primalDen_ok n (s : qpb N) l0 l1 (d : deltas N) up (den : list R) : qwf n s l0 l1 -> dwf n d -> zlen den = n ->
  wp (primalDen s d up den) (fun a => zlen a = n /\ forall p, (0 <= p < zlen l0)%Z -> let i := zn 0%Z l0 p in
    zn 0 a p = if up : bool then zn 0 (dl_xFR d) p - zn 0 (dl_ub d) i else zn 0 (dl_lb d) i - zn 0 (dl_xFR d) p).
Proof.
  intros W [] L. unfold primalDen. rewrite (w_nfr _ _ _ _ W). pose proof (w_len0 _ _ _ _ W).
  apply (wp_fill (0:R) (fun p => let i := zn 0%Z l0 p in
    if up : bool then zn 0 (dl_xFR d) p - zn 0 (dl_ub d) i else zn 0 (dl_lb d) i - zn 0 (dl_xFR d) p)); [unfold zlen in *; lia| |].
  - intros i a Hi La. unfold FR_idx. rewrite (rd_rep _ l0) by (auto; apply (w_rep0 _ _ _ _ W)). cbn [bind].
    assert (Hr : (0 <= zn 0%Z l0 i < n)%Z) by (apply (w_in0 _ _ _ _ W), zn_In; lia).
    destruct up; rewrite (rd_ok (0:R)) by (rcar; lia); cbn [bind]; rewrite (rd_ok (0:R)) by (rcar; lia); cbn [bind]; apply wr_ok; rcar; lia.
  - intros a La V _. split; [rcar; congruence|]. intros p Hp. cbv zeta. rcar. now rewrite V.
Qed.

(** C33: the step length of an iteration is the minimum of 1 and all ratios that
    limit it; the reported bound attains it; none is reported iff it is 1. *)
Theorem C33_step : forall n (s : qpb N) l0 l1 (d : deltas N), qwf n s l0 l1 -> dwf n d -> 0 < o_epsDen (q_opts s) ->
  exists t bi bs, ratioTests (N := N) junk d s = Ok (t, bi, bs) /\ least_of (limits s d l0 l1) 1 t /\
    ((bi = (-1)%Z /\ bs = ST_UNDEFINED /\ t = 1) \/ (t < 1 /\ limits s d l0 l1 (bi, bs) t)).
Proof.
  intros n s l0 l1 d W D He.
  pose proof (w_n _ _ _ _ W) as Hn. pose proof (w_len0 _ _ _ _ W) as L0. pose proof (w_len1 _ _ _ _ W) as L1.
  pose proof (w_st _ _ _ _ W) as WF. pose proof (w_nV _ _ _ _ W) as NV.
  assert (P0 : (0 <= zlen l0)%Z) by (unfold zlen; lia). assert (P1 : (0 <= zlen l1)%Z) by (unfold zlen; lia).
  assert (D' := D). destruct D'.
  assert (RN0 : forall p, (0 <= p < zlen l0)%Z -> rd (FR_idx s) p = Ok (zn 0%Z l0 p)) by (intros; apply (rd_rep _ l0); auto; apply (w_rep0 _ _ _ _ W)).
  assert (RN1 : forall p, (0 <= p < zlen l1)%Z -> rd (FX_idx s) p = Ok (zn 0%Z l1 p)) by (intros; apply (rd_rep _ l1); auto; apply (w_rep1 _ _ _ _ W)).
  assert (ZR0 : (zlen l0 <= zlen (FR_idx s))%Z /\ forall p, (0 <= p < zlen l0)%Z -> zn 0%Z (FR_idx s) p = zn 0%Z l0 p).
  { split; [|intros p Hp; specialize (RN0 p Hp); apply rd_inv in RN0; apply RN0].
    destruct (Z.eq_dec (zlen l0) 0) as [E|E]; [rewrite E; unfold zlen; lia|].
    assert (X := RN0 (zlen l0 - 1)%Z ltac:(lia)). apply rd_inv in X. lia. }
  assert (ZR1 : (zlen l1 <= zlen (FX_idx s))%Z /\ forall p, (0 <= p < zlen l1)%Z -> zn 0%Z (FX_idx s) p = zn 0%Z l1 p).
  { split; [|intros p Hp; specialize (RN1 p Hp); apply rd_inv in RN1; apply RN1].
    destruct (Z.eq_dec (zlen l1) 0) as [E|E]; [rewrite E; unfold zlen; lia|].
    assert (X := RN1 (zlen l1 - 1)%Z ltac:(lia)). apply rd_inv in X. lia. }
  assert (RT0 : forall (num den : list R) (t : R), zlen num = n -> zlen den = n -> wp (performRatioTest (N := N) (zlen l0) (FR_idx s) (q_bounds s) num den (o_epsNum (q_opts s)) (o_epsDen (q_opts s)) t)
    (fun '(t', b) => t' <= t /\ (forall p, (0 <= p < zlen l0)%Z -> blocks (zt (st_type (q_bounds s)) (zn 0%Z l0 p)) (zs (st_status (q_bounds s)) (zn 0%Z l0 p)) (zn 0 num p) (zn 0 den p) (o_epsNum (q_opts s)) (o_epsDen (q_opts s)) -> t' <= zn 0 num p / zn 0 den p) /\
     ((b = (-1)%Z /\ t' = t) \/ (t' < t /\ exists p, (0 <= p < zlen l0)%Z /\ b = zn 0%Z l0 p /\ blocks (zt (st_type (q_bounds s)) (zn 0%Z l0 p)) (zs (st_status (q_bounds s)) (zn 0%Z l0 p)) (zn 0 num p) (zn 0 den p) (o_epsNum (q_opts s)) (o_epsDen (q_opts s)) /\ t' = zn 0 num p / zn 0 den p)))).
  { intros num den t En Ed. destruct (C33_performRatioTest n (zlen l0) (FR_idx s) (q_bounds s) l0 l1 num den (o_epsNum (q_opts s)) (o_epsDen (q_opts s)) t) as (t' & b & -> & (A & B & _) & C); auto; try (rcar; lia).
    - intros p Hp. rewrite (proj2 ZR0) by exact Hp. apply (w_in0 _ _ _ _ W), zn_In. lia.
    - apply wp_ok. split; [exact A|]. split.
      + intros p Hp Bp. apply (B p). unfold blockp. rewrite (proj2 ZR0) by exact Hp. auto.
      + destruct C as [C|(C & p & C1 & C2 & C3 & C4)]; [now left|right]. split; [exact C|]. exists p. unfold blockp in C3. rewrite (proj2 ZR0) in C2, C3 by exact C1. auto. }
  cut (wp (ratioTests (N := N) junk d s) (fun '(t, bi, bs) => (t <= 1 /\ forall e r, limits s d l0 l1 e r -> t <= r) /\
    ((bi = (-1)%Z /\ bs = ST_UNDEFINED /\ t = 1) \/ (t < 1 /\ limits s d l0 l1 (bi, bs) t)))).
  { intros X. apply wp_inv in X as ([[t bi] bs] & E & (A & B) & C). exists t, bi, bs. split; [exact E|]. split; [|exact C].
    split; [exact A|]. split; [exact B|]. destruct C as [(_ & _ & C)|(_ & C)]; [now left|right; eauto]. }
  unfold ratioTests. cbv zeta. rewrite (w_nv _ _ _ _ W), (w_nfx _ _ _ _ W), (w_nfr _ _ _ _ W).
  assert (LJ : zlen (junk n) = n) by (apply J; lia).
  apply wp_bind. apply (wp_fill (0:R) (fun p => zn 0 (q_y s) (zn 0%Z l1 p))); [lia| |].
  { intros i a Hi La. rewrite RN1 by (rcar; lia). cbn [bind]. rewrite (rd_ok (0:R) (q_y s)); [cbn [bind]; apply wr_ok; rcar; lia|].
    pose proof (w_y _ _ _ _ W) as LY. rcar. rewrite LY. apply (w_in1 _ _ _ _ W), zn_In. lia. }
  intros num Ln Vn _.
  apply wp_bind. apply (wp_fill (0:R) (fun p => - zn 0 (dl_yFX d) p)); [lia| |].
  { intros i a Hi La. rewrite (rd_ok (0:R)) by (rcar; lia). cbn [bind]. apply wr_ok; rcar; lia. }
  intros den Ld Vd _. apply wp_bind.
  destruct (C33_performRatioTest n (zlen l1) (FX_idx s) (q_bounds s) l0 l1 num den (o_epsNum (q_opts s)) (o_epsDen (q_opts s)) 1) as (t1 & b1 & E1 & (A1 & B1 & _) & C1); auto; try (rcar; lia).
  { intros p Hp. rewrite (proj2 ZR1) by exact Hp. apply (w_in1 _ _ _ _ W), zn_In. lia. }
  change (@n1 N) with (Rlit 1 0). change (Rlit 1 0) with 1. rewrite E1. apply wp_ok. clear E1.
  assert (I1 : forall i r, limits s d l0 l1 (i, ST_INACTIVE) r -> t1 <= r).
  { intros i r (p & Hp & -> & Bk & ->). specialize (B1 p (zn 0 num p / zn 0 den p)). rewrite Vn, Vd in B1 by (rcar; lia). apply B1. split; [exact Hp|]. split; [|reflexivity].
    unfold blockp. rewrite (proj2 ZR1) by exact Hp. rewrite Vn, Vd by (rcar; lia). exact Bk. }
  assert (K1 : let '(bi, bs) := if (0 <=? b1)%Z then (b1, ST_INACTIVE) else ((-1)%Z, ST_UNDEFINED) in
    (bi = (-1)%Z /\ bs = ST_UNDEFINED /\ t1 = 1) \/ (t1 < 1 /\ limits s d l0 l1 (bi, bs) t1)).
  { destruct C1 as [(-> & ->)|(C & p & Hp & -> & Bk & ->)]; [now left|]. rewrite (proj2 ZR1) by exact Hp.
    assert (0 <= zn 0%Z l1 p)%Z by (apply (w_in1 _ _ _ _ W), zn_In; lia). destruct (Z.leb_spec 0 (zn 0%Z l1 p)); [|lia]. right. split; [exact C|].
    exists p. split; [exact Hp|]. split; [reflexivity|]. cbv zeta. unfold blockp in Bk. rewrite (proj2 ZR1), Vn, Vd in Bk by (rcar; lia). rewrite Vn, Vd by (rcar; lia). auto. }
  destruct (if (0 <=? b1)%Z then (b1, ST_INACTIVE) else ((-1)%Z, ST_UNDEFINED)) as [bi1 bs1]. clear C1 B1.
  assert (STEP : forall up (num den : list R) (t : R) bi bs, zlen num = n -> zlen den = n ->
    (if up : bool then st_noUpper (q_bounds s) else st_noLower (q_bounds s)) = false ->
    (bi = (-1)%Z /\ bs = ST_UNDEFINED /\ t = 1) \/ (t < 1 /\ limits s d l0 l1 (bi, bs) t) -> t <= 1 ->
    wp (num <- primalNum s up num ;; den <- primalDen s d up den ;;
        '(t', b) <- performRatioTest (N := N) (zlen l0) (FR_idx s) (q_bounds s) num den (o_epsNum (q_opts s)) (o_epsDen (q_opts s)) t ;;
        Ok (t', b, num, den))
    (fun '(t', b, num, den) => zlen num = n /\ zlen den = n /\ t' <= t /\
      (forall i r, limits s d l0 l1 (i, if up then ST_UPPER else ST_LOWER) r -> t' <= r) /\
      let '(bi, bs) := if (0 <=? b)%Z then (b, if up then ST_UPPER else ST_LOWER) else (bi, bs) in
      (bi = (-1)%Z /\ bs = ST_UNDEFINED /\ t' = 1) \/ (t' < 1 /\ limits s d l0 l1 (bi, bs) t'))).
  { clear num den Ln Ld Vn Vd. intros up num den t bi bs Ln Ld NO K T1.
    apply wp_bind. eapply wp_mono; [apply (primalNum_ok n s l0 l1 up num W Ln)|]. clear num Ln. intros num (Ln & Vn).
    apply wp_bind. eapply wp_mono; [apply (primalDen_ok n s l0 l1 d up den W D Ld)|]. clear den Ld. intros den (Ld & Vd).
    apply wp_bind. eapply wp_mono; [apply (RT0 num den t Ln Ld)|]. intros [t' b] (A & B & C). apply wp_ok.
    split; [exact Ln|]. split; [exact Ld|]. split; [exact A|].
    assert (EQ : forall i r, limits s d l0 l1 (i, if up then ST_UPPER else ST_LOWER) r <-> exists p, (0 <= p < zlen l0)%Z /\ i = zn 0%Z l0 p /\
       blocks (zt (st_type (q_bounds s)) i) (zs (st_status (q_bounds s)) i) (zn 0 num p) (zn 0 den p) (o_epsNum (q_opts s)) (o_epsDen (q_opts s)) /\ r = zn 0 num p / zn 0 den p).
    { intros i r. destruct up; cbn [limits].
      - split.
        + intros (_ & p & Hp & -> & Bk & ->). exists p. rewrite Vn, Vd by (rcar; lia). auto.
        + intros (p & Hp & -> & Bk & ->). split; [exact NO|]. exists p. rewrite Vn, Vd in * by (rcar; lia). auto.
      - split.
        + intros (_ & p & Hp & -> & Bk & ->). exists p. rewrite Vn, Vd by (rcar; lia). auto.
        + intros (p & Hp & -> & Bk & ->). split; [exact NO|]. exists p. rewrite Vn, Vd in * by (rcar; lia). auto. }
    split.
    - intros i r H. apply EQ in H as (p & Hp & -> & Bk & ->). auto.
    - destruct C as [(-> & ->)|(C & p & Hp & -> & Bk & E)]; [exact K|].
      assert (0 <= zn 0%Z l0 p)%Z by (apply (w_in0 _ _ _ _ W), zn_In; lia). destruct (Z.leb_spec 0 (zn 0%Z l0 p)); [|lia]. right. split; [lra|].
      apply EQ. exists p. auto. }
  assert (ND : forall e r t, limits s d l0 l1 e r -> (forall i r, limits s d l0 l1 (i, ST_INACTIVE) r -> t <= r) ->
     (st_noLower (q_bounds s) = false -> forall i r, limits s d l0 l1 (i, ST_LOWER) r -> t <= r) ->
     (st_noUpper (q_bounds s) = false -> forall i r, limits s d l0 l1 (i, ST_UPPER) r -> t <= r) -> t <= r).
  { intros [i v] r t H X1 X2 X3. destruct v; try (now destruct H); eauto.
    - apply (X2 (proj1 H) _ _ H). - apply (X3 (proj1 H) _ _ H). }
  apply wp_bind.
  cut (wp (if st_noLower (q_bounds s) then Ok (t1, bi1, bs1, num, den) else
     num <- primalNum s false num ;; den <- primalDen s d false den ;;
     '(t, b) <- performRatioTest (N := N) (zlen l0) (FR_idx s) (q_bounds s) num den (o_epsNum (q_opts s)) (o_epsDen (q_opts s)) t1 ;;
     Ok (if (0 <=? b)%Z then (t, b, ST_LOWER, num, den) else (t, bi1, bs1, num, den)))
    (fun '(t, bi, bs, num, den) => zlen num = n /\ zlen den = n /\ t <= t1 /\
      (st_noLower (q_bounds s) = false -> forall i r, limits s d l0 l1 (i, ST_LOWER) r -> t <= r) /\
      ((bi = (-1)%Z /\ bs = ST_UNDEFINED /\ t = 1) \/ (t < 1 /\ limits s d l0 l1 (bi, bs) t)))).
  2:{ destruct (st_noLower (q_bounds s)) eqn:NL.
      - apply wp_ok. split; [rcar; lia|]. split; [rcar; lia|]. split; [lra|]. split; [discriminate|exact K1].
      - specialize (STEP false num den t1 bi1 bs1 ltac:(rcar; lia) ltac:(rcar; lia) eq_refl K1 A1).
        apply wp_bind_inv in STEP. apply wp_bind. eapply wp_mono; [exact STEP|]. clear STEP. intros num' STEP. cbn beta in STEP.
        apply wp_bind_inv in STEP. apply wp_bind. eapply wp_mono; [exact STEP|]. clear STEP. intros den' STEP. cbn beta in STEP.
        apply wp_bind_inv in STEP. apply wp_bind. eapply wp_mono; [exact STEP|]. clear STEP. intros [t' b'] STEP. cbn beta iota in STEP. apply wp_ok. cbn [wp] in STEP.
        destruct STEP as (X1 & X2 & X3 & X4 & X5). destruct (0 <=? b')%Z; auto 8. }
  intros X. eapply wp_mono; [exact X|]. clear X. intros [[[[t2 bi2] bs2] num2] den2] (Ln2 & Ld2 & T2 & F2 & K2).
  destruct (st_noUpper (q_bounds s)) eqn:NU.
  - apply wp_ok. split; [|exact K2]. split; [lra|]. intros e r H. apply (ND e r t2 H); auto; [|discriminate]. intros i r' H'. specialize (I1 i r' H'). lra.
  - specialize (STEP true num2 den2 t2 bi2 bs2 Ln2 Ld2 eq_refl K2 ltac:(lra)).
    apply wp_bind_inv in STEP. apply wp_bind. eapply wp_mono; [exact STEP|]. clear STEP. intros num' STEP. cbn beta in STEP.
    apply wp_bind_inv in STEP. apply wp_bind. eapply wp_mono; [exact STEP|]. clear STEP. intros den' STEP. cbn beta in STEP.
    apply wp_bind_inv in STEP. apply wp_bind. eapply wp_mono; [exact STEP|]. clear STEP. intros [t' b'] STEP. cbn beta iota in STEP. apply wp_ok. cbn [wp] in STEP.
    destruct STEP as (X1 & X2 & X3 & X4 & X5).
    assert (G : t' <= 1 /\ forall e r, limits s d l0 l1 e r -> t' <= r).
    { split; [lra|]. intros e r H. apply (ND e r t' H); auto.
      - intros i r' H'. specialize (I1 i r' H'). lra.
      - intros NL i r' H'. specialize (F2 NL i r' H'). lra. }
    destruct (0 <=? b')%Z; auto.
Qed.
End Ratio.

(** Examples: one entry blocks; the object of QPBEx moving with delta_lb = delta_ub = delta_g = 0. *)
Definition ex_RX := RNumT (1/1000) (1/1000000) 1000.
Example C33_performRatioTest_ex : exists t' bc, performRatioTest (N := ex_RX) 1 [1%Z] ex_st [1] [2] 0 (1/2) 1 = Ok (t', bc) /\ t' = 1/2 /\ bc = 1%Z.
Proof.
  destruct (C33_performRatioTest (1/1000) (1/1000000) 1000 2 1 [1%Z] ex_st [0%Z] [1%Z] [1] [2] 0 (1/2) 1 ex_st_wf) as (t' & bc & E & (L1 & L2 & L3) & A);
    try reflexivity; try (unfold zlen; cbn; lia); try lra.
  1:{ intros p Hp. assert (p = 0)%Z by lia. subst p. vm_compute; split; congruence. }
  assert (B : t' <= 1 / 2).
  { apply (L2 0%Z). split; [lia|]. split; [|reflexivity]. split; [discriminate|]. left. split; [now left|]. change (zn 0 [2] 0%Z) with 2; change (zn 0 [1] 0%Z) with 1. rcar; lra. }
  exists t', bc. split; [exact E|]. destruct A as [(_ & A)|(_ & p & Hp & -> & _ & A)]; [lra|]. assert (p = 0)%Z by lia. subst p. now split.
Qed.
(** the object of QPBEx: variable 0 moves by 2 towards its upper bound 1, so half the step is possible *)
Example C33_step_ex : forall junk : Z -> list R, junk_ok (N := ex_RX) junk -> let s := ex_qp (N := ex_RX) optDefault in
  let d := mkD (N := ex_RX) [0;0] [0;0] [0;0] [0;0] [2;0] [-1;0] in
  qwf 2 s [0%Z] [1%Z] /\ dwf 2 d /\ 0 < o_epsDen (q_opts s) /\ limits _ _ _ s d [0%Z] [1%Z] (0%Z, ST_UPPER) (1/2) /\
  exists (t : R) bi bs, ratioTests (N := ex_RX) junk d s = Ok (t, bi, bs) /\ t <= 1/2.
Proof.
  intros junk J s d. assert (W : qwf 2 s [0%Z] [1%Z]) by apply ex_wf. assert (D : dwf 2 d) by (constructor; reflexivity).
  assert (E : o_epsDen (q_opts s) = 1). { change (Rlit 1 3 * (1 / 1000) = 1). change (Rlit 1 3) with 1000. lra. }
  assert (E' : o_epsNum (q_opts s) = -1). { change (- Rlit 1 3 * (1 / 1000) = -1). change (Rlit 1 3) with 1000. lra. }
  split; [exact W|]. split; [exact D|]. split; [rewrite E; lra|].
  assert (L : limits _ _ _ s d [0%Z] [1%Z] (0%Z, ST_UPPER) (1/2)).
  { split; [reflexivity|]. exists 0%Z. split; [unfold zlen; cbn; lia|]. split; [reflexivity|]. 
    change (blocks ST_BOUNDED ST_INACTIVE (Rmax (1 - 0) 0) (2 - 0) (- Rlit 1 3 * (1 / 1000)) (Rlit 1 3 * (1 / 1000)) /\ 1 / 2 = Rmax (1 - 0) 0 / (2 - 0)).
    change (Rlit 1 3) with 1000. rewrite Rmax_left by lra. split; [|lra]. split; [discriminate|]. left. split; [now right|]. lra. }
  split; [exact L|]. destruct (C33_step _ _ _ junk J 2 s [0%Z] [1%Z] d W D) as (t & bi & bs & R0 & (_ & A & _) & _); [change (0 < o_epsDen (q_opts s)); rewrite E; lra|].
  exists t, bi, bs. split; [exact R0|]. now apply (A _ _ L).
Qed.

Print Assumptions C33_performRatioTest.
Print Assumptions C33_step.
