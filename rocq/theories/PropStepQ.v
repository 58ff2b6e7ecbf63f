(** C68: one step of the homotopy with constraints.  The step moves data and
    iterate together, stops at the first limit or multiplier in its way, and so
    keeps stationarity, active limits, stored distances and, up to epsDen,
    feasibility and signs.  Exact arithmetic. *)
From Verif Require Import Base Types Num Options Indexlist IndexlistProofs Loops RSum LinSpec SafeLib SubjectTo SubjectToProofs SubjectToProofs2
  Flipper PropFlipper Matrices MatLib MatSafe CsLib PropDense PropSparse PropSparse2 LinAlg PropLinAlg QProblemB QPBSafe QPBSafe2 QPBEx QPBX1 QPBX2 QPBX5 QPBX8 QPBX11 PropHess PropAux PropRatio
  QProblem QProblem2 QProblem3 QProblem4 QProblem5 QPFrame PropNull QProblem6 QPFrame2 PropSQ PropAuxP PropStepP.
Local Open Scope R_scope.

Section StepQ.
Variables eps zero infty : R.
Hypothesis zero_0 : zero = 0.
Notation N := (RNumT eps zero infty).
Notation arr := (list R).
Variable junk : Z -> arr.
Hypothesis J : junk_ok (N := N) junk.
Notation tyB := (tyB eps zero infty). Notation tyC := (tyC eps zero infty).
Notation wsB := (wsB eps zero infty). Notation wsC := (wsC eps zero infty).
Notation xB := (xB eps zero infty). Notation yB := (yB eps zero infty).
Notation lB := (lB eps zero infty). Notation uB := (uB eps zero infty).
Notation lC := (lC eps zero infty). Notation uC := (uC eps zero infty).
Notation act := (act eps zero infty).

(** ** Selected rows of a product *)
Lemma updated1t n ld (t : Z -> Z) (y y' : arr) b S : updated 1 n (fun k j => addr ld k (t j)) y y' b S ->
  zlen y' = zlen y /\ (forall j, (0 <= j < n)%Z -> zn 0 y' (t j) = b * zn 0 y (t j) + S 0%Z j) /\
  (forall p, (0 <= p)%Z -> (forall j, (0 <= j < n)%Z -> t j <> p) -> zn 0 y' p = zn 0 y p).
Proof.
  intros (L & V & U). split; [exact L|]. split.
  - intros j Hj. specialize (V 0%Z j ltac:(lia) Hj). unfold addr in V. now rewrite Z.mul_0_l, Z.add_0_r in V.
  - intros p H0 Hp. apply U; [exact H0|]. intros k j Hk Hj E. unfold addr in E. assert (k = 0)%Z by lia. subst k. apply (Hp j Hj). lia.
Qed.
Lemma sprow_rows A ir li (x y : arr) xLD yLD : wf_sprow A -> il_rep ir li -> idx_in li (r_nr A) -> (0 <= xLD)%Z -> (0 <= yLD)%Z -> (r_nc A <= zlen x)%Z -> (r_nr A <= zlen y)%Z ->
  exists y', r_times_idx (N := N) A ir None 1 1 x xLD 0 y yLD false = Ok y' /\
    updated 1 (zlen li) (fun k j => (zn 0%Z li j + k * yLD)%Z) y y' (snapB zero 0) (fun k j => snapA zero 1 * mv (r_nc A) (fun i => rmat A (zn 0%Z li j) i) (vec x xLD k)).
Proof.
  intros WF Rr Ir Hx Hy Lx Ly. unfold r_times_idx. rewrite (rep_len _ _ Rr). cbn iota.
  assert (Fx : PropDense.fits 1 (r_nc A) xLD (zlen x)) by (apply fits1; lia). assert (Fy : PropDense.fits 1 (r_nr A) yLD (zlen y)) by (apply fits1; lia).
  eapply (product eps zero infty 1 (zlen li) _ id_row (fun j => zn 0%Z li j)); try lia; auto using zlen_nonneg.
  - intros j Hj. now apply rd_number.
  - right. right. rewrite Rabs_R0. lra.
  - apply distinct_strided with (r_nr A); auto; [apply strided1|]. now apply li_inj with ir.
  - intros k j Hk Hj. apply fits_in with 1%Z (r_nr A); auto.
  - rewrite <- (rep_len _ _ Rr).
    apply (adds_sel (zlen y) (fun j q => rsum 0 1 (fun k => if (q =? zn 0%Z li j + k * yLD)%Z then
        snapA zero 1 * mv (r_nc A) (fun i => rmat A (zn 0%Z li j) i) (vec x xLD k) else 0))
      (fun srt row y => each_entry (r_jr A) row (fun j y => for_up 0 1 (fun k y =>
        c <- rd (r_ic A) j ;; v <- rd (r_val A) j ;; xv <- rd x (k * xLD + c) ;;
        accum (N := N) 1 y (k * yLD + row) v xv) y) y) ir li Rr).
    intros j Hj. pose proof (Ir j Hj) as Hr. set (row := zn 0%Z li j) in *.
    eapply adds_ext.
    { apply (adds_entry _ _ _ _ _ WF row (zlen y) _ (fun p q => rsum 0 1 (fun k => if (q =? k * yLD + row)%Z then
        snapA zero 1 * (zn 0 (r_val A) p * vec x xLD k (zn 0%Z (r_ic A) p)) else 0))); auto.
      intros p Hp. apply adds_for. intros k Hk. pose proof (fits_in 1 (r_nr A) yLD (zlen y) k row Fy Hk Hr).
      destruct (pos_in _ _ _ _ _ WF row p Hr Hp) as (_ & _ & _ & Hc).
      eapply adds_ext_m.
      - intros s Hs. rewrite (rd_idx _ _ _ _ _ WF row) by assumption. cbn [bind]. rcar. rewrite (rd_val _ _ _ _ _ WF row) by assumption. cbn [bind].
        rewrite (Z.add_comm (k * xLD)). rewrite (rd_ok 0) by (now apply fits_in with 1%Z (r_nc A)). cbn [bind]. reflexivity.
      - apply adds_accum. lia. }
    intros q Hq. cbn beta. rewrite rsum_swap. apply rsum_ext. intros k Hk. rewrite (Z.add_comm (k * yLD)). rewrite rsum_if.
    destruct (q =? row + k * yLD)%Z; [|reflexivity]. unfold rsum at 1. rewrite lsum_scal. f_equal.
    apply (ent_sum _ _ _ _ _ WF row (vec x xLD k) Hr).
  - intros q Hq. cbn beta. rewrite rsum_swap. reflexivity.
Qed.

Lemma rows_ok m n M Am ir li (x y : arr) : (0 <= m)%Z -> (0 <= n)%Z -> astored eps zero infty m n M Am -> il_rep ir li -> idx_in li m -> zlen x = n -> zlen y = m ->
  exists y', a_times_rows (N := N) M ir x n y m = Ok y' /\ zlen y' = m /\
    (forall i, In i li -> zn 0 y' i = matvec n Am (zn 0 x) i) /\ (forall i, (0 <= i)%Z -> ~ In i li -> zn 0 y' i = zn 0 y i).
Proof.
  intros Hm Hn AS Rr Ir Lx Ly.
  assert (R0 : regular zero 0) by (apply unit_regular; auto; lra). assert (R1 : regular zero 1) by (apply unit_regular; auto; lra).
  assert (FIN : forall y', zlen y' = zlen y /\ (forall j, (0 <= j < zlen li)%Z -> zn 0 y' (zn 0%Z li j) = 0 * zn 0 y (zn 0%Z li j) + matvec n Am (zn 0 x) (zn 0%Z li j)) /\
    (forall p, (0 <= p)%Z -> (forall j, (0 <= j < zlen li)%Z -> zn 0%Z li j <> p) -> zn 0 y' p = zn 0 y p) ->
    zlen y' = m /\ (forall i, In i li -> zn 0 y' i = matvec n Am (zn 0 x) i) /\ (forall i, (0 <= i)%Z -> ~ In i li -> zn 0 y' i = zn 0 y i)).
  { intros y' (L & V & U). split; [congruence|]. split.
    - intros i Hi. destruct (In_zn 0%Z li i Hi) as (j & Hj & <-). rewrite V by exact Hj. ring.
    - intros i H0 Hi. apply U; [exact H0|]. intros j Hj E. apply Hi. rewrite <- E. now apply zn_In. }
  assert (ZS : zlen (zseq 0 n) = n) by (rewrite zlen_zseq; lia).
  assert (MV : forall B : Z -> Z -> R, (forall i j, (0 <= j < n)%Z -> B i j = Am i j) -> forall i, 1 * mv n (fun j => B i (zn 0%Z (zseq 0 n) j)) (vec x n 0) = matvec n Am (zn 0 x) i).
  { intros B HB i. rewrite Rmult_1_l. unfold mv, matvec. apply rsum_ext. intros j Hj. rewrite zn_zseq by lia. rewrite HB by exact Hj. unfold vec. f_equal. f_equal. lia. }
  destruct M as [A|A|A]; cbn [astored a_times_rows] in *.
  - destruct AS as (WF & Hr & Hc & Hl & ->).
    destruct (times_idx_ok eps zero infty A ir li None (zseq 0 n) 1 1 x n 0 y m false WF Rr) as (y' & E & U); rcar; rewrite ?Hr, ?Hc, ?ZS; try (first [congruence | lia | assumption | apply strided1 | (apply fits1; lia) | reflexivity]).
    { right. right. rewrite Rabs_R0. lra. }
    exists y'. split; [exact E|]. apply FIN. rewrite snapA_regular, snapB_regular in U by (assumption || lra). apply (updated1t _ _ (fun j => zn 0%Z li j)) in U as (L & V & K). split; [exact L|]. split; [|exact K].
    intros j Hj. rewrite V by exact Hj. rewrite ZS. rewrite MV; auto.
  - destruct AS as (WF & Hr & Hc & ->).
    destruct (C22_sparse_times_idx eps zero infty ltac:(lra) A ir li None (zseq 0 n) 1 1 x n 0 y m false WF Rr) as (y' & E & U); rcar; rewrite ?Hr, ?Hc, ?ZS; try (first [congruence | lia | assumption | apply strided1 | (apply fits1; lia) | reflexivity | (right; reflexivity) | (left; reflexivity)]).
    { intros k i _ _. rewrite zero_0. intros Q. destruct (Req_dec (vec x n k i) 0) as [|NE]; [assumption|]. pose proof (Rabs_pos_lt _ NE). lra. }
    exists y'. split; [exact E|]. apply FIN. apply (updated1t _ _ (fun j => zn 0%Z li j)) in U as (L & V & K). split; [exact L|]. split; [|exact K].
    intros j Hj. rewrite V by exact Hj. rewrite ZS. rewrite MV; auto.
  - destruct AS as (WF & Hr & Hc & ->).
    destruct (sprow_rows A ir li x y n m WF Rr) as (y' & E & U); rcar; rewrite ?Hr, ?Hc; try (first [congruence | lia | assumption]).
    exists y'. split; [exact E|]. apply FIN. rewrite snapA_regular, snapB_regular in U by (assumption || lra). apply (updated1t _ m (fun j => zn 0%Z li j)) in U as (L & V & K). split; [exact L|]. split; [|exact K].
    intros j Hj. rewrite V by exact Hj. f_equal. rewrite Rmult_1_l. rewrite Hc. unfold mv, matvec. apply rsum_ext. intros i Hi. unfold vec. f_equal. f_equal. lia.
Qed.

(** ** The ratio tests *)
Lemma ratio_ok dim n K (idx : list Z) st l0 l1 (num den : Z -> Z -> res R) (fn fd : Z -> R) v isB (s : qp N) (nu de : arr) (b : block (N := N)) :
  st_wf st l0 l1 -> st_n st = K -> (0 <= n <= zlen idx)%Z -> (n <= dim)%Z -> (forall p, (0 <= p < n)%Z -> (0 <= zn 0%Z idx p < K)%Z) -> zlen nu = dim -> zlen de = dim ->
  (forall p, (0 <= p < n)%Z -> num p (zn 0%Z idx p) = Ok (fn (zn 0%Z idx p)) /\ den p (zn 0%Z idx p) = Ok (fd (zn 0%Z idx p))) -> 0 < o_epsDen (p_opts s) ->
  wp (p_ratio (N := N) n idx st num den v isB s (nu, de) b) (fun '(nu', de', b') => zlen (nu' : arr) = dim /\ zlen (de' : arr) = dim /\ bk_t b' <= bk_t b /\
    (forall p, (0 <= p < n)%Z -> let i := zn 0%Z idx p in blocks (zt (st_type st) i) (zs (st_status st) i) (fn i) (fd i) (o_epsNum (p_opts s)) (o_epsDen (p_opts s)) -> bk_t b' <= fn i / fd i) /\
    (b' = b \/ bk_t b' < bk_t b /\ bk_st b' = v /\ bk_isB b' = isB /\ exists p, (0 <= p < n)%Z /\ let i := zn 0%Z idx p in bk_idx b' = i /\
       blocks (zt (st_type st) i) (zs (st_status st) i) (fn i) (fd i) (o_epsNum (p_opts s)) (o_epsDen (p_opts s)) /\ bk_t b' = fn i / fd i)).
Proof.
  intros WF HK Hn Hd Hr Lnu Lde ND ED. unfold p_ratio. apply wp_bind.
  apply wp_for_up with (I := fun k '(a, c) => zlen (a : arr) = dim /\ zlen (c : arr) = dim /\ forall p, (0 <= p < k)%Z -> zn 0 a p = fn (zn 0%Z idx p) /\ zn 0 c p = fd (zn 0%Z idx p)).
  - lia.
  - split; [exact Lnu|]. split; [exact Lde|]. intros; lia.
  - intros p (a, c) Hp (La & Lc & V). rewrite (rd_ok 0%Z) by lia. cbn [bind]. destruct (ND p ltac:(lia)) as (E1 & E2). rcar. rewrite E1. cbn [bind]. rewrite wr_ok by lia. cbn [bind]. rewrite E2. cbn [bind].
    rewrite wr_ok by lia. cbn [bind wp]. rewrite !zlen_zupd. split; [exact La|]. split; [exact Lc|]. intros q Hq. destruct (Z.eq_dec q p) as [->|NE].
    + rewrite !zn_zupd_eq by lia. auto.
    + rewrite !zn_zupd_ne by lia. apply V. lia.
  - intros (a, c) (La & Lc & V). cbv zeta. apply wp_bind.
    destruct (C33_performRatioTest eps zero infty K n idx st l0 l1 a c (o_epsNum (p_opts s)) (o_epsDen (p_opts s)) (bk_t b) WF HK Hn Hr ltac:(lia) ltac:(lia) ED) as (t & k & E & (A & B & _) & C).
    rcar. rewrite E. cbn [wp]. split; [exact La|]. split; [exact Lc|].
    assert (T : bk_t (if (0 <=? k)%Z then mkBlock (N := N) t k v isB else mkBlock (N := N) t (bk_idx b) (bk_st b) (bk_isB b)) = t) by (destruct (0 <=? k)%Z; reflexivity).
    split; [rewrite T; exact A|]. split.
    + intros p Hp Bk. rewrite T. apply (B p). destruct (V p Hp) as (Va & Vc). split; [exact Hp|]. unfold blockp. rewrite Va, Vc. auto.
    + destruct C as [(-> & ->)|(C & p & Hp & -> & Bk & Et)]; [left; destruct b; reflexivity|right].
      destruct (V p Hp) as (Va & Vc). unfold blockp in Bk. rewrite Va, Vc in Bk. rewrite Va, Vc in Et. specialize (Hr p Hp). destruct (Z.leb_spec 0 (zn 0%Z idx p)); [|lia]. cbn [bk_t bk_st bk_isB bk_idx].
      split; [exact C|]. split; [reflexivity|]. split; [reflexivity|]. exists p. split; [exact Hp|]. cbv zeta. auto.
Qed.

(** spreading a compressed vector *)
Lemma spread_ok n k (idx : list Z) (v a : arr) (f : Z -> R) : (0 <= k <= zlen idx)%Z -> (k <= zlen v)%Z -> zlen a = n -> (forall p, (0 <= p < k)%Z -> (0 <= zn 0%Z idx p < n)%Z /\ f (zn 0%Z idx p) = zn 0 v p) ->
  wp (for_up 0 k (fun j a => jj <- rd idx j ;; w <- rd v j ;; wr a jj w) a) (fun a' : arr => zlen a' = n /\
    (forall p, (0 <= p < k)%Z -> zn 0 a' (zn 0%Z idx p) = f (zn 0%Z idx p)) /\ forall i, (0 <= i < n)%Z -> zn 0 a' i = f i \/ zn 0 a' i = zn 0 a i).
Proof.
  intros Hk Lv La F. apply wp_for_up with (I := fun q (a' : arr) => zlen a' = n /\
    (forall p, (0 <= p < q)%Z -> zn 0 a' (zn 0%Z idx p) = f (zn 0%Z idx p)) /\ forall i, (0 <= i < n)%Z -> zn 0 a' i = f i \/ zn 0 a' i = zn 0 a i).
  - lia.
  - split; [exact La|]. split; [intros; lia|]. auto.
  - intros q a1 Hq (L1 & V1 & U1). destruct (F q ltac:(lia)) as (Hi & Fi). rewrite (rd_ok 0%Z) by lia. cbn [bind]. rcar. rewrite (rd_ok 0) by lia. cbn [bind]. rewrite wr_ok by lia. cbn [wp].
    rewrite zlen_zupd. split; [exact L1|]. rewrite <- Fi. split.
    + intros p Hp. destruct (Z.eq_dec (zn 0%Z idx p) (zn 0%Z idx q)) as [E|NE]; [rewrite E, zn_zupd_eq by lia; reflexivity|].
      assert (p <> q) by congruence. pose proof (F p ltac:(lia)). rewrite zn_zupd_ne by lia. apply V1. lia.
    + intros i H0. destruct (Z.eq_dec i (zn 0%Z idx q)) as [->|NE]; [left; rewrite zn_zupd_eq by lia; reflexivity|]. rewrite zn_zupd_ne by lia. auto.
  - auto.
Qed.

(** ** Specification *)
(** What limits the step: [hits isB v i r] says that bound ([isB]) or constraint
    [i] allows at most the step length [r], because its multiplier would change
    sign ([v] is ST_INACTIVE: it would leave the working set) or because its lower
    or upper limit would be passed. *)
Definition hits (n : Z) (Am : Z -> Z -> R) (s : qp N) (d : pshift (N := N)) (dx dy dyA : Z -> R) (isB : bool) (v : SubjectToStatus) (i : Z) (r : R) : Prop :=
  let o := p_opts s in
  if isB then
    let b nu de := blocks (tyB s i) (wsB s i) nu de (o_epsNum o) (o_epsDen o) /\ r = nu / de in
    (0 <= i < pV s)%Z /\
    match v with
    | ST_INACTIVE => is_active (wsB s i) = true /\ b (yB s i) (- dy i)
    | ST_LOWER => st_noLower (p_bounds s) = false /\ wsB s i = ST_INACTIVE /\ b (Rmax (xB s i - lB s i) 0) (zn 0 (sh_lb d) i - dx i)
    | ST_UPPER => st_noUpper (p_bounds s) = false /\ wsB s i = ST_INACTIVE /\ b (Rmax (uB s i - xB s i) 0) (dx i - zn 0 (sh_ub d) i)
    | _ => False
    end
  else
    let b nu de := blocks (tyC s i) (wsC s i) nu de (o_epsNum o) (o_epsDen o) /\ r = nu / de in
    (0 <= i < pC s)%Z /\
    match v with
    | ST_INACTIVE => is_active (wsC s i) = true /\ b (yB s (n + i)) (- dyA i)
    | ST_LOWER => st_noLower (p_cons s) = false /\ wsC s i = ST_INACTIVE /\ b (Rmax (zn 0 (p_Ax_l s) i) 0) (zn 0 (sh_lbA d) i - matvec n Am dx i)
    | ST_UPPER => st_noUpper (p_cons s) = false /\ wsC s i = ST_INACTIVE /\ b (Rmax (zn 0 (p_Ax_u s) i) 0) (matvec n Am dx i - zn 0 (sh_ubA d) i)
    | _ => False
    end.
Definition free_step : block (N := N) := mkBlock (N := N) 1 (-1) ST_UNDEFINED false.

Section Tests.
Variables n m : Z.
Variable Am : Z -> Z -> R.
Variable M : amat N.
Variable s : qp N.
Variables l0 l1 k0 k1 : list Z.
Variable d : pshift (N := N).
Variable p : pstep (N := N).
Variables dx dy dyA : Z -> R.
Hypothesis SZ : sized eps zero infty n m s.
Hypothesis WB : st_wf (p_bounds s) l0 l1.
Hypothesis WC : st_wf (p_cons s) k0 k1.
Hypothesis HA : p_A s = Some M.
Hypothesis AS : astored eps zero infty m n M Am.
Hypothesis FT : fits eps zero infty s d p.
Hypothesis UN : unpacksP eps zero infty s p dx dy dyA.
Hypothesis SB : forall i, (0 <= i < n)%Z -> settled (wsB s i).
Hypothesis ED : 0 < o_epsDen (p_opts s).
Notation H := (hits n Am s d dx dy dyA).

Lemma lst (il : indexlist) l : il_rep il l -> il_length il = zlen l /\ (zlen l <= zlen (il_number il))%Z /\
  (forall q, (0 <= q < zlen l)%Z -> In (zn 0%Z (il_number il) q) l) /\ (forall i, In i l -> exists q, (0 <= q < zlen l)%Z /\ i = zn 0%Z (il_number il) q).
Proof using.
  intros [A B C _ V _ _ _]. split; [exact A|]. split; [lia|]. split.
  - intros q Hq. change (zn 0%Z (il_number il) q) with (zz (il_number il) q). rewrite V by exact Hq. now apply zn_In.
  - intros i Hi. destruct (In_zn 0%Z l i Hi) as (q & Hq & <-). exists q. split; [exact Hq|]. symmetry. exact (V q Hq).
Qed.

Definition sofar (b : block (N := N)) : Prop := bk_t b <= 1 /\ (b = free_step \/ bk_t b < 1 /\ H (bk_isB b) (bk_st b) (bk_idx b) (bk_t b)).
Lemma stage (c : bool) dim st a0 a1 il l (num den : Z -> Z -> res R) (fn fd : Z -> R) v isB (nu de : arr) (b : block (N := N)) :
  st_wf st a0 a1 -> il_rep il l -> (zlen l <= dim)%Z -> (forall i, In i l -> (0 <= i < st_n st)%Z) -> zlen nu = dim -> zlen de = dim ->
  (forall q, (0 <= q < zlen l)%Z -> let i := zn 0%Z (il_number il) q in num q i = Ok (fn i) /\ den q i = Ok (fd i)) -> sofar b ->
  (forall i r, H isB v i r <-> c = false /\ In i l /\ blocks (zt (st_type st) i) (zs (st_status st) i) (fn i) (fd i) (o_epsNum (p_opts s)) (o_epsDen (p_opts s)) /\ r = fn i / fd i) ->
  wp (if c then Ok (nu, de, b) else p_ratio (N := N) (il_length il) (il_number il) st num den v isB s (nu, de) b) (fun '(nu', de', b') => zlen (nu' : arr) = dim /\ zlen (de' : arr) = dim /\
    bk_t b' <= bk_t b /\ sofar b' /\ forall i r, H isB v i r -> bk_t b' <= r).
Proof using ED.
  intros WF Rp Hd Ri Ln Ld ND (B1 & B2) HQ. destruct c.
  { cbn [wp]. split; [exact Ln|]. split; [exact Ld|]. split; [lra|]. split; [split; auto|]. intros i r X. apply HQ in X as (X & _). discriminate X. }
  destruct (lst il l Rp) as (E & Lz & I1 & I2). rewrite E.
  eapply wp_mono; [apply (ratio_ok dim (zlen l) (st_n st) (il_number il) st a0 a1 num den fn fd v isB s nu de b WF eq_refl)|]; auto.
  - split; [apply zlen_nonneg|exact Lz].
  - intros ((nu', de'), b') (L1 & L2 & T & A & C). split; [exact L1|]. split; [exact L2|]. split; [exact T|]. split.
    + split; [lra|]. destruct C as [->|(C1 & C2 & C3 & q & Hq & C4 & C5 & C6)]; [exact B2|right]. split; [lra|]. rewrite C2, C3, C4. apply HQ. split; [reflexivity|]. split; [auto|]. auto.
    + intros i r X. apply HQ in X as (_ & Hi & Bk & ->). destruct (I2 i Hi) as (q & Hq & ->). apply (A q Hq). exact Bk.
Qed.
Lemma deltaX_ok : wp (deltaX (N := N) junk p s) (fun a : arr => zlen a = n /\ forall i, (0 <= i < n)%Z -> zn 0 a i = dx i).
Proof using SZ WB FT UN SB J.
  destruct SZ. destruct FT as (_ & _ & _ & _ & _ & F1 & F2 & _). destruct UN as (U0 & U1 & _). unfold deltaX.
  assert (NB : st_n (p_bounds s) = n) by exact sz_V.
  destruct (lst _ _ (wf_ina _ _ _ WB)) as (E0 & Lz0 & I0 & I0'). destruct (lst _ _ (wf_act _ _ _ WB)) as (E1 & Lz1 & I1 & I1').
  change (pFR s) with (il_length (st_ina (p_bounds s))) in *. change (pFX s) with (il_length (st_act (p_bounds s))) in *. rewrite E0, E1 in *. change (p_FR s) with (il_number (st_ina (p_bounds s))). change (p_FX s) with (il_number (st_act (p_bounds s))).
  assert (LJ : zlen (junk (pV s)) = n) by (rewrite sz_V; apply J; lia).
  assert (LL0 : (zlen l0 <= n)%Z) by (rewrite <- NB, <- (wf_pina _ _ _ WB), <- E0; apply (wf_ina _ _ _ WB)).
  assert (LL1 : (zlen l1 <= n)%Z) by (rewrite <- NB, <- (wf_pact _ _ _ WB), <- E1; apply (wf_act _ _ _ WB)).
  apply wp_bind. eapply wp_mono; [apply (spread_ok n (zlen l0) _ (sp_xFR p) _ dx)|]; auto.
  - split; [apply zlen_nonneg|exact Lz0].
  - rcar. lia.
  - intros q Hq. split; [rewrite <- NB; apply (wf_in0 _ _ _ WB), I0, Hq|]. exact (proj1 (U0 q Hq)).
  - intros a (La & V0 & _). eapply wp_mono; [apply (spread_ok n (zlen l1) _ (sp_xFX p) _ dx)|]; auto.
    + split; [apply zlen_nonneg|exact Lz1].
    + rcar. lia.
    + intros q Hq. split; [rewrite <- NB; apply (wf_in1 _ _ _ WB), I1, Hq|]. exact (proj1 (U1 q Hq)).
    + intros a' (La' & V1 & K). split; [exact La'|]. intros i Hi. destruct (SB i Hi) as [S0|S1].
      * assert (Hin : In i l0) by (apply (wf_in0 _ _ _ WB); rewrite NB; auto). destruct (I0' i Hin) as (q & Hq & Ei). destruct (K i Hi) as [X|X]; [exact X|]. rewrite X, Ei. apply V0, Hq.
      * assert (Hin : In i l1) by (apply (wf_in1 _ _ _ WB); rewrite NB; split; [exact Hi|]; destruct S1 as [S1|S1]; change (is_active (PropAuxP.wsB eps zero infty s i) = true); rewrite S1; reflexivity).
        destruct (I1' i Hin) as (q & Hq & ->). apply V1, Hq.
Qed.

Lemma ratioTests_ok : wp (p_ratioTests (N := N) junk d p s) (fun '(b, dAx) => zlen (dAx : arr) = m /\
  (forall i, (0 <= i < m)%Z -> wsC s i = ST_INACTIVE -> zn 0 dAx i = matvec n Am dx i) /\
  sofar b /\ forall isB v i r, H isB v i r -> bk_t b <= r).
Proof using SZ WB WC HA AS FT UN SB ED J zero_0.
  destruct SZ. destruct FT as (F0 & FlA & FuA & Fl & Fu & F1 & F2 & F3 & F4). destruct UN as (U0 & U1 & U2 & U3).
  assert (NB : st_n (p_bounds s) = n) by exact sz_V. assert (NC : st_n (p_cons s) = m) by exact sz_C.
  destruct (lst _ _ (wf_ina _ _ _ WB)) as (E0 & Lz0 & I0 & I0'). destruct (lst _ _ (wf_act _ _ _ WB)) as (E1 & Lz1 & I1 & I1').
  destruct (lst _ _ (wf_ina _ _ _ WC)) as (E2 & Lz2 & I2 & I2'). destruct (lst _ _ (wf_act _ _ _ WC)) as (E3 & Lz3 & I3 & I3').
  assert (LL0 : (zlen l0 <= n)%Z) by (rewrite <- NB, <- (wf_pina _ _ _ WB), <- E0; apply (wf_ina _ _ _ WB)).
  assert (LL1 : (zlen l1 <= n)%Z) by (rewrite <- NB, <- (wf_pact _ _ _ WB), <- E1; apply (wf_act _ _ _ WB)).
  assert (LL2 : (zlen k0 <= m)%Z) by (rewrite <- NC, <- (wf_pina _ _ _ WC), <- E2; apply (wf_ina _ _ _ WC)).
  assert (LL3 : (zlen k1 <= m)%Z) by (rewrite <- NC, <- (wf_pact _ _ _ WC), <- E3; apply (wf_act _ _ _ WC)).
  assert (R0 : forall i, In i l0 -> (0 <= i < n)%Z) by (intros i Hi; rewrite <- NB; apply (wf_in0 _ _ _ WB), Hi).
  assert (R1 : forall i, In i l1 -> (0 <= i < n)%Z) by (intros i Hi; rewrite <- NB; apply (wf_in1 _ _ _ WB), Hi).
  assert (R2 : forall i, In i k0 -> (0 <= i < m)%Z) by (intros i Hi; rewrite <- NC; apply (wf_in0 _ _ _ WC), Hi).
  assert (R3 : forall i, In i k1 -> (0 <= i < m)%Z) by (intros i Hi; rewrite <- NC; apply (wf_in1 _ _ _ WC), Hi).
  unfold p_ratioTests. cbv zeta. rewrite sz_V, sz_C. set (dim := if (n >? m)%Z then n else m).
  assert (D1 : (n <= dim)%Z) by (unfold dim; destruct (Z.gtb_spec n m); lia). assert (D2 : (m <= dim)%Z) by (unfold dim; destruct (Z.gtb_spec n m); lia).
  assert (LJ : zlen (junk dim) = dim) by (apply J; lia).
  apply wp_bind. eapply wp_mono; [apply deltaX_ok|]. intros dxa (Ldx & Vdx).
  change (pAC s) with (il_length (st_act (p_cons s))) in *. change (pIAC s) with (il_length (st_ina (p_cons s))) in *.
  change (pFR s) with (il_length (st_ina (p_bounds s))) in *. change (pFX s) with (il_length (st_act (p_bounds s))) in *.
  change (p_FR s) with (il_number (st_ina (p_bounds s))). change (p_FX s) with (il_number (st_act (p_bounds s))).
  change (p_AC s) with (il_number (st_act (p_cons s))). change (p_IAC s) with (il_number (st_ina (p_cons s))).
  rewrite E0 in U0. rewrite E1 in U1. rewrite E3 in U2.
  (* multipliers of the active constraints *)
  apply wp_bind. eapply wp_mono; [apply (stage false dim (p_cons s) k0 k1 (st_act (p_cons s)) k1 _ _ (fun i => yB s (n + i)) (fun i => - dyA i) ST_INACTIVE false _ _ free_step WC (wf_act _ _ _ WC))|]; auto.
  { lia. }
  { rewrite NC. exact R3. }
  { intros q Hq i. assert (Hi : (0 <= i < m)%Z) by (apply R3, I3, Hq). rcar. rewrite (rd_ok 0) by lia. rewrite (rd_ok 0) by lia. cbn [bind]. split; [reflexivity|]. rewrite <- (U2 q Hq). reflexivity. }
  { split; [cbn; lra|now left]. }
  { intros i r. unfold hits. rewrite sz_C. rewrite (wf_in1 _ _ _ WC i), NC. fold (tyC s i) (wsC s i). tauto. }
  intros ((nu1, de1), b1) (Ln1 & Ld1 & T1 & S1 & A1).
  (* multipliers of the fixed variables *)
  apply wp_bind. eapply wp_mono; [apply (stage false dim (p_bounds s) l0 l1 (st_act (p_bounds s)) l1 _ _ (fun i => yB s i) (fun i => - dy i) ST_INACTIVE true _ _ b1 WB (wf_act _ _ _ WB))|]; auto.
  { lia. }
  { rewrite NB. exact R1. }
  { intros q Hq i. assert (Hi : (0 <= i < n)%Z) by (apply R1, I1, Hq). rcar. rewrite (rd_ok 0) by lia. rewrite (rd_ok 0) by lia. cbn [bind]. split; [reflexivity|]. rewrite <- (proj2 (U1 q Hq)). reflexivity. }
  { intros i r. unfold hits. rewrite sz_V. rewrite (wf_in1 _ _ _ WB i), NB. fold (tyB s i) (wsB s i). tauto. }
  intros ((nu2, de2), b2) (Ln2 & Ld2 & T2 & S2 & A2).
  unfold p_theA. rewrite HA. cbn [bind].
  destruct (rows_ok m n M Am (p_inactive s) k0 dxa (junk m) sz_m sz_n AS (wf_ina _ _ _ WC)) as (dAx & EA & LA & VA & _); [intros q Hq; apply R2, zn_In, Hq|exact Ldx|apply J; lia|].
  rcar. rewrite EA. cbn [bind].
  assert (VA' : forall i, In i k0 -> zn 0 dAx i = matvec n Am dx i).
  { intros i Hi. rewrite VA by exact Hi. unfold matvec. apply rsum_ext. intros j Hj. now rewrite Vdx. }
  (* lower limits of the inactive constraints *)
  apply wp_bind. eapply wp_mono; [apply (stage (st_noLower (p_cons s)) dim (p_cons s) k0 k1 (st_ina (p_cons s)) k0 _ _ (fun i => Rmax (zn 0 (p_Ax_l s) i) 0) (fun i => zn 0 (sh_lbA d) i - matvec n Am dx i) ST_LOWER false _ _ b2 WC (wf_ina _ _ _ WC))|]; auto.
  { lia. }
  { rewrite NC. exact R2. }
  { intros q Hq i. assert (Hi : (0 <= i < m)%Z) by (apply R2, I2, Hq). rcar. do 3 rewrite (rd_ok 0) by lia. cbn [bind]. rewrite getMax_R. split; [reflexivity|]. rewrite VA' by (apply I2, Hq). reflexivity. }
  { intros i r. unfold hits. rewrite sz_C. rewrite (wf_in0 _ _ _ WC i), NC. fold (tyC s i) (wsC s i). tauto. }
  intros ((nu3, de3), b3) (Ln3 & Ld3 & T3 & S3 & A3).
  apply wp_bind. eapply wp_mono; [apply (stage (st_noUpper (p_cons s)) dim (p_cons s) k0 k1 (st_ina (p_cons s)) k0 _ _ (fun i => Rmax (zn 0 (p_Ax_u s) i) 0) (fun i => matvec n Am dx i - zn 0 (sh_ubA d) i) ST_UPPER false _ _ b3 WC (wf_ina _ _ _ WC))|]; auto.
  { lia. }
  { rewrite NC. exact R2. }
  { intros q Hq i. assert (Hi : (0 <= i < m)%Z) by (apply R2, I2, Hq). rcar. do 3 rewrite (rd_ok 0) by lia. cbn [bind]. rewrite getMax_R. split; [reflexivity|]. rewrite VA' by (apply I2, Hq). reflexivity. }
  { intros i r. unfold hits. rewrite sz_C. rewrite (wf_in0 _ _ _ WC i), NC. fold (tyC s i) (wsC s i). tauto. }
  intros ((nu4, de4), b4) (Ln4 & Ld4 & T4 & S4 & A4).
  (* limits of the free variables *)
  apply wp_bind. eapply wp_mono; [apply (stage (st_noLower (p_bounds s)) dim (p_bounds s) l0 l1 (st_ina (p_bounds s)) l0 _ _ (fun i => Rmax (xB s i - lB s i) 0) (fun i => zn 0 (sh_lb d) i - dx i) ST_LOWER true _ _ b4 WB (wf_ina _ _ _ WB))|]; auto.
  { lia. }
  { rewrite NB. exact R0. }
  { intros q Hq i. assert (Hi : (0 <= i < n)%Z) by (apply R0, I0, Hq). rcar. do 4 rewrite (rd_ok 0) by lia. cbn [bind]. rewrite getMax_R. split; [reflexivity|]. rewrite <- (proj1 (U0 q Hq)). reflexivity. }
  { intros i r. unfold hits. rewrite sz_V. rewrite (wf_in0 _ _ _ WB i), NB. fold (tyB s i) (wsB s i). tauto. }
  intros ((nu5, de5), b5) (Ln5 & Ld5 & T5 & S5 & A5).
  apply wp_bind. eapply wp_mono; [apply (stage (st_noUpper (p_bounds s)) dim (p_bounds s) l0 l1 (st_ina (p_bounds s)) l0 _ _ (fun i => Rmax (uB s i - xB s i) 0) (fun i => dx i - zn 0 (sh_ub d) i) ST_UPPER true _ _ b5 WB (wf_ina _ _ _ WB))|]; auto.
  { lia. }
  { rewrite NB. exact R0. }
  { intros q Hq i. assert (Hi : (0 <= i < n)%Z) by (apply R0, I0, Hq). rcar. do 4 rewrite (rd_ok 0) by lia. cbn [bind]. rewrite getMax_R. split; [reflexivity|]. rewrite <- (proj1 (U0 q Hq)). reflexivity. }
  { intros i r. unfold hits. rewrite sz_V. rewrite (wf_in0 _ _ _ WB i), NB. fold (tyB s i) (wsB s i). tauto. }
  intros ((nu6, de6), b6) (Ln6 & Ld6 & T6 & S6 & A6). cbn [wp]. split; [exact LA|]. split.
  { intros i Hi WS. apply VA', (wf_in0 _ _ _ WC). rewrite NC. split; [exact Hi|exact WS]. }
  split; [exact S6|]. intros [|] v i r X.
  - assert (V : v = ST_INACTIVE \/ v = ST_LOWER \/ v = ST_UPPER) by (destruct X as (_ & X); destruct v; auto; contradiction).
    destruct V as [->|[->| ->]]; [specialize (A2 i r X)|specialize (A5 i r X)|specialize (A6 i r X)]; lra.
  - assert (V : v = ST_INACTIVE \/ v = ST_LOWER \/ v = ST_UPPER) by (destruct X as (_ & X); destruct v; auto; contradiction).
    destruct V as [->|[->| ->]]; [specialize (A1 i r X)|specialize (A3 i r X)|specialize (A4 i r X)]; lra.
Qed.

(** ** Taking the step *)
(** loops over an index list that each change one entry *)
Lemma sel_loop {S C} k (idx : list Z) (get : S -> Z -> C) (inv : S -> Prop) (upd : Z -> C -> C) (body : Z -> S -> res S) (s0 : S) :
  (0 <= k)%Z -> (forall q q', (0 <= q < k)%Z -> (0 <= q' < k)%Z -> zn 0%Z idx q = zn 0%Z idx q' -> q = q') -> inv s0 ->
  (forall q s, (0 <= q < k)%Z -> inv s -> wp (body q s) (fun s' => inv s' /\ get s' (zn 0%Z idx q) = upd (zn 0%Z idx q) (get s (zn 0%Z idx q)) /\
     forall i, (0 <= i)%Z -> i <> zn 0%Z idx q -> get s' i = get s i)) ->
  (forall q, (0 <= q < k)%Z -> (0 <= zn 0%Z idx q)%Z) ->
  wp (for_up 0 k body s0) (fun s' => inv s' /\ (forall q, (0 <= q < k)%Z -> get s' (zn 0%Z idx q) = upd (zn 0%Z idx q) (get s0 (zn 0%Z idx q))) /\
    forall i, (0 <= i)%Z -> (forall q, (0 <= q < k)%Z -> zn 0%Z idx q <> i) -> get s' i = get s0 i).
Proof using.
  intros Hk INJ I0 Body Pos. apply wp_for_up with (I := fun j s' => inv s' /\ (forall q, (0 <= q < j)%Z -> get s' (zn 0%Z idx q) = upd (zn 0%Z idx q) (get s0 (zn 0%Z idx q))) /\
    forall i, (0 <= i)%Z -> (forall q, (0 <= q < j)%Z -> zn 0%Z idx q <> i) -> get s' i = get s0 i).
  - exact Hk.
  - split; [exact I0|]. split; [intros; lia|]. auto.
  - intros j s1 Hj (I1 & V & U). eapply wp_mono; [apply (Body j s1 ltac:(lia) I1)|]. intros s2 (I2 & G & O). split; [exact I2|]. split.
    + intros q Hq. destruct (Z.eq_dec q j) as [->|NE].
      * rewrite G. f_equal. apply U; [apply Pos; lia|]. intros q' Hq' E. assert (q' = j) by (apply INJ; auto; lia). lia.
      * rewrite O; [apply V; lia|apply Pos; lia|]. intros E. apply NE. apply INJ; auto; lia.
    + intros i Hi NQ. rewrite O; [apply U; [exact Hi|]; intros q Hq; apply NQ; lia|exact Hi|]. intros E. apply (NQ j ltac:(lia)). auto.
  - auto.
Qed.
Lemma rep_inj il l : il_rep il l -> forall q q', (0 <= q < zlen l)%Z -> (0 <= q' < zlen l)%Z -> zn 0%Z (il_number il) q = zn 0%Z (il_number il) q' -> q = q'.
Proof using.
  intros Rp q q' Hq Hq' E. change (zz (il_number il) q = zz (il_number il) q') in E. rewrite !(rep_val _ _ Rp) in E by assumption. exact (li_inj il l Rp q q' Hq Hq' E).
Qed.

(** the state after a step of length [h] *)
Definition stepped (h : R) (dAx : Z -> R) (s' : qp N) : Prop := exists x y g lb ub lbA ubA Ax Al Au : arr,
  s' = up_b (N := N) (fun b => set_q_ub (N := N) ub (set_q_lb (N := N) lb (set_q_g (N := N) g (set_q_y (N := N) y (set_q_x (N := N) x b)))))
         (set_p_Ax_u (N := N) Au (set_p_Ax_l (N := N) Al (set_p_Ax (N := N) Ax (set_p_ubA (N := N) ubA (set_p_lbA (N := N) lbA s))))) /\
  (zlen x = n /\ zlen y = (n + m)%Z /\ zlen g = n /\ zlen lb = n /\ zlen ub = n /\ zlen lbA = m /\ zlen ubA = m /\ zlen Ax = m /\ zlen Al = m /\ zlen Au = m) /\
  (forall i, (0 <= i < n)%Z -> zn 0 x i = xB s i + h * dx i /\ zn 0 y i = yB s i + h * dy i /\ zn 0 g i = zn 0 (q_g (p_b s)) i + h * zn 0 (sh_g d) i /\
     zn 0 lb i = lB s i + h * zn 0 (sh_lb d) i /\ zn 0 ub i = uB s i + h * zn 0 (sh_ub d) i) /\
  (forall k, (0 <= k < m)%Z -> zn 0 y (n + k) = yB s (n + k) + h * dyA k /\ zn 0 lbA k = lC s k + h * zn 0 (sh_lbA d) k /\ zn 0 ubA k = uC s k + h * zn 0 (sh_ubA d) k /\
     (wsC s k <> ST_INACTIVE -> zn 0 Ax k = matvec n Am (zn 0 x) k /\ zn 0 Al k = zn 0 Ax k - zn 0 lbA k /\ zn 0 Au k = zn 0 ubA k - zn 0 Ax k) /\
     (wsC s k = ST_INACTIVE -> tyC s k <> ST_UNBOUNDED -> zn 0 Ax k = zn 0 (p_Ax s) k + h * dAx k /\
        zn 0 Al k = zn 0 (p_Ax_l s) k + h * (dAx k - zn 0 (sh_lbA d) k) /\ zn 0 Au k = zn 0 (p_Ax_u s) k + h * (zn 0 (sh_ubA d) k - dAx k))).
Hypothesis SC : forall k, (0 <= k < m)%Z -> settled (wsC s k).

Lemma act_in (st : subjectTo) a0 a1 i : st_wf st a0 a1 -> (0 <= i < st_n st)%Z -> settled (zs (st_status st) i) -> (zs (st_status st) i <> ST_INACTIVE <-> In i a1) /\ (zs (st_status st) i = ST_INACTIVE <-> In i a0) /\ (In i a0 -> ~ In i a1).
Proof using.
  intros W Hi S. rewrite (wf_in1 _ _ _ W), (wf_in0 _ _ _ W). destruct S as [-> |[-> | ->]]; cbn [is_active]; intuition congruence.
Qed.

Lemma applyStep_ok (dAx : arr) : zlen dAx = m ->
  wp (p_applyStep (N := N) d p dAx s) (fun s' => (q_tau (p_b s) <= 0 /\ s' = s) \/ (0 < q_tau (p_b s) /\ stepped (q_tau (p_b s)) (zn 0 dAx) s')).
Proof using SZ WB WC HA AS FT UN SB SC zero_0.
  intros LdA. destruct SZ. destruct FT as (F0 & FlA & FuA & Fl & Fu & F1 & F2 & F3 & F4). destruct UN as (U0 & U1 & U2 & U3).
  rewrite sz_V in *. rewrite sz_C in *.
  assert (NB : st_n (p_bounds s) = n) by exact sz_V. assert (NC : st_n (p_cons s) = m) by exact sz_C.
  destruct (lst _ _ (wf_ina _ _ _ WB)) as (E0 & Lz0 & I0 & I0'). destruct (lst _ _ (wf_act _ _ _ WB)) as (E1 & Lz1 & I1 & I1').
  destruct (lst _ _ (wf_ina _ _ _ WC)) as (E2 & Lz2 & I2 & I2'). destruct (lst _ _ (wf_act _ _ _ WC)) as (E3 & Lz3 & I3 & I3').
  assert (LL0 : (zlen l0 <= n)%Z) by (rewrite <- NB, <- (wf_pina _ _ _ WB), <- E0; apply (wf_ina _ _ _ WB)).
  assert (LL1 : (zlen l1 <= n)%Z) by (rewrite <- NB, <- (wf_pact _ _ _ WB), <- E1; apply (wf_act _ _ _ WB)).
  assert (LL2 : (zlen k0 <= m)%Z) by (rewrite <- NC, <- (wf_pina _ _ _ WC), <- E2; apply (wf_ina _ _ _ WC)).
  assert (LL3 : (zlen k1 <= m)%Z) by (rewrite <- NC, <- (wf_pact _ _ _ WC), <- E3; apply (wf_act _ _ _ WC)).
  assert (R0 : forall i, In i l0 -> (0 <= i < n)%Z) by (intros i Hi; rewrite <- NB; apply (wf_in0 _ _ _ WB), Hi).
  assert (R1 : forall i, In i l1 -> (0 <= i < n)%Z) by (intros i Hi; rewrite <- NB; apply (wf_in1 _ _ _ WB), Hi).
  assert (R2 : forall i, In i k0 -> (0 <= i < m)%Z) by (intros i Hi; rewrite <- NC; apply (wf_in0 _ _ _ WC), Hi).
  assert (R3 : forall i, In i k1 -> (0 <= i < m)%Z) by (intros i Hi; rewrite <- NC; apply (wf_in1 _ _ _ WC), Hi).
  assert (WI : forall i, (0 <= i < n)%Z -> (wsB s i <> ST_INACTIVE <-> In i l1) /\ (wsB s i = ST_INACTIVE <-> In i l0) /\ (In i l0 -> ~ In i l1)) by (intros i Hi; apply (act_in (p_bounds s) l0 l1 i WB); [lia|exact (SB i Hi)]).
  assert (WK : forall i, (0 <= i < m)%Z -> (wsC s i <> ST_INACTIVE <-> In i k1) /\ (wsC s i = ST_INACTIVE <-> In i k0) /\ (In i k0 -> ~ In i k1)) by (intros i Hi; apply (act_in (p_cons s) k0 k1 i WC); [lia|exact (SC i Hi)]).
  unfold p_applyStep. cbv zeta. set (tau := q_tau (p_b s)). rnum. unfold Rltb. destruct (Rlt_dec zero tau) as [HT|HT]; [|cbn [wp]; left; split; [lra|reflexivity]].
  change (pAC s) with (il_length (st_act (p_cons s))) in *. change (pIAC s) with (il_length (st_ina (p_cons s))) in *.
  change (pFR s) with (il_length (st_ina (p_bounds s))) in *. change (pFX s) with (il_length (st_act (p_bounds s))) in *.
  change (p_FR s) with (il_number (st_ina (p_bounds s))). change (p_FX s) with (il_number (st_act (p_bounds s))).
  change (p_AC s) with (il_number (st_act (p_cons s))). rewrite sz_V, sz_C.
  rewrite E0 in U0. rewrite E1 in U1. rewrite E3 in U2. rewrite E0, E1, E3.
  apply wp_bind. eapply wp_mono; [apply (stepIdx_exact eps zero infty l0 _ (st_ina (p_bounds s)) tau (sp_xFR p) (q_x (p_b s)) n (wf_ina _ _ _ WB) eq_refl R0 sz_x); rcar; lia|].
  intros x1 (Lx1 & Vx1 & Kx1).
  apply wp_bind. eapply wp_mono; [apply (stepIdx_exact eps zero infty l1 _ (st_act (p_bounds s)) tau (sp_xFX p) x1 n (wf_act _ _ _ WB) eq_refl R1 Lx1); rcar; lia|].
  intros x (Lx & Vx & Kx).
  apply wp_bind. eapply wp_mono; [apply (stepIdx_exact eps zero infty l1 _ (st_act (p_bounds s)) tau (sp_yFX p) (q_y (p_b s)) (n + m) (wf_act _ _ _ WB) eq_refl)|]; [intros v Hv; specialize (R1 v Hv); lia|exact sz_y|rcar; lia|].
  intros y1 (Ly1 & Vy1 & Ky1).
  assert (Vx' : forall i, (0 <= i < n)%Z -> zn 0 x i = xB s i + tau * dx i /\ zn 0 y1 i = yB s i + tau * dy i).
  { intros i Hi. destruct (WI i Hi) as (WA & WN & DJ). destruct (SB i Hi) as [S0|S1].
    - apply WN in S0 as Hin. destruct (I0' i Hin) as (q & Hq & Ei). destruct (U0 q Hq) as (Ux & Uy). assert (Ux' : dx i = zn 0 (sp_xFR p) q) by (rewrite Ei; exact Ux). assert (Uy' : dy i = 0) by (rewrite Ei; exact Uy).
      rewrite Kx, Ky1 by (try lia; apply DJ, Hin). rewrite Uy', Rmult_0_r, Rplus_0_r. split; [|reflexivity]. rewrite Ux'. 
      assert (Ez : zz l0 q = i) by (rewrite <- (rep_val _ _ (wf_ina _ _ _ WB) q Hq); symmetry; exact Ei). specialize (Vx1 q Hq). rewrite Ez in Vx1. exact Vx1.
    - assert (NI : wsB s i <> ST_INACTIVE) by (destruct S1 as [S1|S1]; rewrite S1; discriminate).
      apply WA in NI as Hin. destruct (I1' i Hin) as (q & Hq & Ei). destruct (U1 q Hq) as (Ux & Uy). assert (Ux' : dx i = zn 0 (sp_xFX p) q) by (rewrite Ei; exact Ux). assert (Uy' : dy i = zn 0 (sp_yFX p) q) by (rewrite Ei; exact Uy).
      assert (Ez : zz l1 q = i) by (rewrite <- (rep_val _ _ (wf_act _ _ _ WB) q Hq); symmetry; exact Ei).
      specialize (Vx q Hq). specialize (Vy1 q Hq). rewrite Ez in Vx, Vy1. rewrite Vx, Vy1, Ux', Uy'. split; [|reflexivity]. rewrite Kx1; [reflexivity|lia|]. intros X. exact (DJ X Hin). }
  assert (Ky : forall k, (0 <= k < m)%Z -> zn 0 y1 (n + k) = yB s (n + k)) by (intros k Hk; apply Ky1; [lia|intros X; specialize (R1 _ X); lia]).
  clear Vx1 Kx1 Vx Kx Vy1 Ky1.
  apply wp_bind. eapply wp_mono; [apply (sel_loop (zlen k1) (il_number (st_act (p_cons s))) (fun y k => zn 0 y (n + k)) (fun y : arr => zlen y = (n + m)%Z /\ forall i, (0 <= i < n)%Z -> zn 0 y i = zn 0 y1 i) (fun k u => u + tau * dyA k))|].
  { apply zlen_nonneg. }
  { exact (rep_inj _ _ (wf_act _ _ _ WC)). }
  { split; [exact Ly1|]. auto. }
  { intros q a Hq (La & Va). assert (Hi := R3 _ (I3 q Hq)). set (ii := zn 0%Z (il_number (st_act (p_cons s))) q) in *. rewrite (rd_ok 0%Z) by lia. cbn [bind]. fold ii. rcar. rewrite (rd_ok 0) by lia. cbn [bind]. rewrite (rd_ok 0) by lia. cbn [bind]. rewrite wr_ok by lia. cbn [wp].
    rewrite zlen_zupd. split; [split; [exact La|]|split].
    - intros i H0. rewrite zn_zupd_ne by lia. auto.
    - rewrite zn_zupd_eq by lia. rewrite <- (U2 q Hq). reflexivity.
    - intros i H0 NE. rewrite zn_zupd_ne by lia. reflexivity. }
  { intros q Hq. apply R3, I3, Hq. }
  intros y ((Ly & Vy0) & Vy & Kyy).
  assert (Vy' : forall k, (0 <= k < m)%Z -> zn 0 y (n + k) = yB s (n + k) + tau * dyA k).
  { intros k Hk. destruct (WK k Hk) as (WA & WN & DJ). destruct (SC k Hk) as [S0|S1].
    - rewrite (U3 k Hk S0), Rmult_0_r, Rplus_0_r. rewrite <- (Ky k Hk). apply Kyy; [lia|]. intros q Hq E. apply (DJ (proj1 WN S0)). rewrite <- E. apply I3, Hq.
    - assert (NI : wsC s k <> ST_INACTIVE) by (destruct S1 as [S1|S1]; rewrite S1; discriminate). destruct (I3' k (proj1 WA NI)) as (q & Hq & ->). rewrite Vy by exact Hq. rewrite Ky by exact Hk. reflexivity. }
  clear Vy Kyy.
  apply wp_bind. eapply wp_mono; [apply (stepAll_exact eps zero infty n tau (sh_g d) (q_g (p_b s)) sz_n sz_g F0)|]. intros g (Lg & Vg).
  apply wp_bind. eapply wp_mono; [apply (stepAll_exact eps zero infty n tau (sh_lb d) (q_lb (p_b s)) sz_n sz_lb Fl)|]. intros lb (Llb & Vlb).
  apply wp_bind. eapply wp_mono; [apply (stepAll_exact eps zero infty n tau (sh_ub d) (q_ub (p_b s)) sz_n sz_ub Fu)|]. intros ub (Lub & Vub).
  apply wp_bind. eapply wp_mono; [apply (stepAll_exact eps zero infty m tau (sh_lbA d) (p_lbA s) sz_m sz_lbA FlA)|]. intros lbA (LlA & VlA).
  apply wp_bind. eapply wp_mono; [apply (stepAll_exact eps zero infty m tau (sh_ubA d) (p_ubA s) sz_m sz_ubA FuA)|]. intros ubA (LuA & VuA).
  unfold p_theA. rewrite HA. cbn [bind].
  destruct (rows_ok m n M Am (p_active s) k1 x (p_Ax s) sz_m sz_n AS (wf_act _ _ _ WC)) as (Ax1 & EA & LA & VA & KA); [intros q Hq; apply R3, zn_In, Hq|exact Lx|exact sz_Ax|].
  rcar. rewrite EA. cbn [bind].
  apply wp_bind. eapply wp_mono; [apply (sel_loop (zlen k1) (il_number (st_act (p_cons s))) (fun '(a, b) k => (zn 0 a k, zn 0 b k)) (fun '(a, b) => zlen (a : arr) = m /\ zlen (b : arr) = m) (fun k _ => (zn 0 Ax1 k - zn 0 lbA k, zn 0 ubA k - zn 0 Ax1 k)))|].
  { apply zlen_nonneg. }
  { exact (rep_inj _ _ (wf_act _ _ _ WC)). }
  { auto. }
  { intros q (a, b) Hq (La & Lb). assert (Hi := R3 _ (I3 q Hq)). set (ii := zn 0%Z (il_number (st_act (p_cons s))) q) in *. rewrite (rd_ok 0%Z) by lia. cbn [bind]. fold ii. rcar. do 3 (rewrite (rd_ok 0) by lia; cbn [bind]).
    do 2 (rewrite wr_ok by lia; cbn [bind]). cbn [wp]. rewrite !zlen_zupd. split; [auto|]. split; [rewrite !zn_zupd_eq by lia; reflexivity|]. intros i H0 NE. rewrite !zn_zupd_ne by lia. reflexivity. }
  { intros q Hq. apply R3, I3, Hq. }
  intros (Al1, Au1) ((LAl & LAu) & VAl & KAl). unfold stepInactive. change (pIAC s) with (il_length (st_ina (p_cons s))). change (p_IAC s) with (il_number (st_ina (p_cons s))). rewrite E2.
  apply wp_bind. eapply wp_mono; [apply (sel_loop (zlen k0) (il_number (st_ina (p_cons s))) (fun '(c, a, b) k => (zn 0 c k, zn 0 a k, zn 0 b k)) (fun '(c, a, b) => zlen (c : arr) = m /\ zlen (a : arr) = m /\ zlen (b : arr) = m)
    (fun k '(c, a, b) => if is_stt (tyC s k) ST_UNBOUNDED then (c, a, b) else (c + tau * zn 0 dAx k, a + tau * (zn 0 dAx k - zn 0 (sh_lbA d) k), b + tau * (zn 0 (sh_ubA d) k - zn 0 dAx k))))|].
  { apply zlen_nonneg. }
  { exact (rep_inj _ _ (wf_ina _ _ _ WC)). }
  { auto. }
  { intros q ((c, a), b) Hq (Lc & La & Lb). assert (Hi := R2 _ (I2 q Hq)). set (ii := zn 0%Z (il_number (st_ina (p_cons s))) q) in *. rewrite (rd_ok 0%Z) by lia. cbn [bind]. fold ii. rewrite (getType_ok _ _ _ ii WC) by lia. cbn [bind].
    fold (tyC s ii). destruct (is_stt (tyC s ii) ST_UNBOUNDED); [cbn [wp]; auto|]. rcar. do 6 (rewrite (rd_ok 0) by lia; cbn [bind]).
    do 3 (rewrite wr_ok by lia; cbn [bind]). cbn [wp]. rewrite !zlen_zupd. split; [auto|]. split; [rewrite !zn_zupd_eq by lia; reflexivity|]. intros i H0 NE. rewrite !zn_zupd_ne by lia. reflexivity. }
  { intros q Hq. apply R2, I2, Hq. }
  intros ((Ax, Al), Au) ((L1 & L2 & L3) & VI & KI). cbn [wp]. right. split; [lra|].
  exists x, y, g, lb, ub, lbA, ubA, Ax, Al, Au. split; [reflexivity|]. split; [auto 12|]. split.
  - intros i Hi. destruct (Vx' i Hi) as (V1 & V2). rewrite Vy0 by exact Hi. rewrite Vg, Vlb, Vub by exact Hi. auto.
  - intros k Hk. destruct (WK k Hk) as (WA & WN & DJ). rewrite VlA, VuA by exact Hk. split; [auto|]. split; [reflexivity|]. split; [reflexivity|]. split.
    + intros NI. apply WA in NI as Hin. assert (NQ : forall q, (0 <= q < zlen k0)%Z -> zn 0%Z (il_number (st_ina (p_cons s))) q <> k) by (intros q Hq E; apply (DJ ltac:(rewrite <- E; apply I2, Hq)), Hin).
      specialize (KI k ltac:(lia) NQ). injection KI as -> -> ->. destruct (I3' k Hin) as (q & Hq & Ek). specialize (VAl q Hq). rewrite <- Ek in VAl. injection VAl as -> ->. rewrite VlA, VuA by exact Hk. split; [apply VA, Hin|auto].
    + intros NI TY. apply WN in NI as Hin. destruct (I2' k Hin) as (q & Hq & Ek). specialize (VI q Hq). rewrite <- Ek in VI.
      assert (NQ : forall q, (0 <= q < zlen k1)%Z -> zn 0%Z (il_number (st_act (p_cons s))) q <> k) by (intros q' Hq' E; apply (DJ Hin); rewrite <- E; apply I3, Hq').
      specialize (KAl k ltac:(lia) NQ). injection KAl as KA1 KA2. rewrite KA1, KA2 in VI. rewrite (KA k) in VI by (try lia; apply DJ, Hin).
      destruct (is_stt (tyC s k) ST_UNBOUNDED) eqn:ET; [exfalso; apply TY; destruct (tyC s k); try discriminate ET; reflexivity|]. injection VI as -> -> ->. auto.
Qed.
End Tests.

(** ** The theorem *)
(** What an iteration starts from: index lists, constraint matrix and arrays in
    order, the gradient of the Lagrangian is zero, active limits are met,
    multipliers of inactive ones are zero, activities and distances are stored. *)
(** what is active sits on its limit up to [del], what is inactive has multiplier 0 *)
Definition near_limits (del : R) (n m : Z) (Am : Z -> Z -> R) (s : qp N) : Prop :=
  (forall i, (0 <= i < n)%Z -> (wsB s i = ST_LOWER -> Rabs (xB s i - lB s i) <= del) /\ (wsB s i = ST_UPPER -> Rabs (xB s i - uB s i) <= del) /\ (wsB s i = ST_INACTIVE -> yB s i = 0)) /\
  (forall i, (0 <= i < m)%Z -> (wsC s i = ST_LOWER -> Rabs (act n Am s i - lC s i) <= del) /\ (wsC s i = ST_UPPER -> Rabs (act n Am s i - uC s i) <= del) /\ (wsC s i = ST_INACTIVE -> yB s (n + i) = 0)).
Record steady (del : R) (n m : Z) (Hm Am : Z -> Z -> R) (s : qp N) : Prop := {
  e_sz : sized eps zero infty n m s;
  e_B : exists l0 l1, st_wf (p_bounds s) l0 l1;
  e_C : exists k0 k1, st_wf (p_cons s) k0 k1;
  e_A : exists M, p_A s = Some M /\ astored eps zero infty m n M Am;
  e_sB : forall i, (0 <= i < n)%Z -> settled (wsB s i);
  e_sC : forall k, (0 <= k < m)%Z -> settled (wsC s k);
  e_grad : forall i, (0 <= i < n)%Z -> matvec n Hm (xB s) i + zn 0 (q_g (p_b s)) i = yB s i + rsum 0 m (fun k => Am k i * yB s (n + k));
  e_lim : near_limits del n m Am s;
  e_Ax : forall k, (0 <= k < m)%Z -> wsC s k <> ST_INACTIVE \/ tyC s k <> ST_UNBOUNDED -> zn 0 (p_Ax s) k = act n Am s k /\ slack_right eps zero infty n Am s k
}.
(** the same without the gradient, whose error is named *)
Record poised (del : R) (n m : Z) (Am : Z -> Z -> R) (s : qp N) : Prop := {
  o_sz : sized eps zero infty n m s;
  o_B : exists l0 l1, st_wf (p_bounds s) l0 l1;
  o_C : exists k0 k1, st_wf (p_cons s) k0 k1;
  o_A : exists M, p_A s = Some M /\ astored eps zero infty m n M Am;
  o_sB : forall i, (0 <= i < n)%Z -> settled (wsB s i);
  o_sC : forall k, (0 <= k < m)%Z -> settled (wsC s k);
  o_lim : near_limits del n m Am s;
  o_Ax : forall k, (0 <= k < m)%Z -> wsC s k <> ST_INACTIVE \/ tyC s k <> ST_UNBOUNDED -> zn 0 (p_Ax s) k = act n Am s k /\ slack_right eps zero infty n Am s k
}.
Definition gap (n m : Z) (Hm Am : Z -> Z -> R) (s : qp N) (i : Z) : R := matvec n Hm (xB s) i + zn 0 (q_g (p_b s)) i - yB s i - rsum 0 m (fun k => Am k i * yB s (n + k)).
Lemma steady_poised del n m Hm Am s : steady del n m Hm Am s <-> poised del n m Am s /\ forall i, (0 <= i < n)%Z -> gap n m Hm Am s i = 0.
Proof.
  split.
  - intros []. split; [constructor; assumption|]. intros i Hi. unfold gap. specialize (e_grad0 i Hi). lra.
  - intros ([] & G). constructor; try assumption. intros i Hi. specialize (G i Hi). unfold gap in G. lra.
Qed.
(** the data moved by [h] times the shifts, the iterate by [h] times the direction *)
Definition moved (n m : Z) (h : R) (s s' : qp N) (d : pshift (N := N)) (dx dy dyA : Z -> R) : Prop :=
  (forall i, (0 <= i < n)%Z -> xB s' i = xB s i + h * dx i /\ yB s' i = yB s i + h * dy i /\ zn 0 (q_g (p_b s')) i = zn 0 (q_g (p_b s)) i + h * zn 0 (sh_g d) i /\
     lB s' i = lB s i + h * zn 0 (sh_lb d) i /\ uB s' i = uB s i + h * zn 0 (sh_ub d) i) /\
  (forall k, (0 <= k < m)%Z -> yB s' (n + k) = yB s (n + k) + h * dyA k /\ lC s' k = lC s k + h * zn 0 (sh_lbA d) k /\ uC s' k = uC s k + h * zn 0 (sh_ubA d) k).
(** [a] was not passed: if it was nonnegative before the step, it is at least [-e] after it *)
Definition not_passed (e a a' : R) : Prop := Rmin a 0 - e <= a'.
Definition no_limit_passed (n m : Z) (Am : Z -> Z -> R) (s s' : qp N) : Prop := let e := o_epsDen (p_opts s) in
  (forall i, (0 <= i < n)%Z -> wsB s i = ST_INACTIVE -> tyB s i <> ST_EQUALITY ->
     (st_noLower (p_bounds s) = false -> not_passed e (xB s i - lB s i) (xB s' i - lB s' i)) /\
     (st_noUpper (p_bounds s) = false -> not_passed e (uB s i - xB s i) (uB s' i - xB s' i))) /\
  (forall k, (0 <= k < m)%Z -> wsC s k = ST_INACTIVE -> tyC s k <> ST_EQUALITY -> tyC s k <> ST_UNBOUNDED ->
     (st_noLower (p_cons s) = false -> not_passed e (act n Am s k - lC s k) (act n Am s' k - lC s' k)) /\
     (st_noUpper (p_cons s) = false -> not_passed e (uC s k - act n Am s k) (uC s' k - act n Am s' k))).
Definition no_sign_changed (n m : Z) (s s' : qp N) : Prop := let e := o_epsDen (p_opts s) in let e0 := o_epsNum (p_opts s) in
  (forall i, (0 <= i < n)%Z -> tyB s i <> ST_EQUALITY ->
     (wsB s i = ST_LOWER -> e0 <= yB s i -> not_passed e (yB s i) (yB s' i)) /\ (wsB s i = ST_UPPER -> e0 <= - yB s i -> not_passed e (- yB s i) (- yB s' i))) /\
  (forall k, (0 <= k < m)%Z -> tyC s k <> ST_EQUALITY ->
     (wsC s k = ST_LOWER -> e0 <= yB s (n + k) -> not_passed e (yB s (n + k)) (yB s' (n + k))) /\ (wsC s k = ST_UPPER -> e0 <= - yB s (n + k) -> not_passed e (- yB s (n + k)) (- yB s' (n + k)))).
(** the step stops where the blocking multiplier is zero or the blocking limit is reached *)
Definition stopped (n m : Z) (Am : Z -> Z -> R) (s s' : qp N) (b : block (N := N)) : Prop :=
  let i := bk_idx b in
  let gone (y y' : R) := y' = 0 \/ bk_t b < 0 /\ y' = y /\ Rabs y <= - o_epsNum (p_opts s) in
  if bk_isB b then (0 <= i < n)%Z /\
    match bk_st b with
    | ST_INACTIVE => wsB s i <> ST_INACTIVE /\ tyB s i <> ST_EQUALITY /\ gone (yB s i) (yB s' i)
    | ST_LOWER => wsB s i = ST_INACTIVE /\ xB s' i - lB s' i = Rmin (xB s i - lB s i) 0
    | ST_UPPER => wsB s i = ST_INACTIVE /\ uB s' i - xB s' i = Rmin (uB s i - xB s i) 0
    | _ => False
    end
  else (0 <= i < m)%Z /\
    match bk_st b with
    | ST_INACTIVE => wsC s i <> ST_INACTIVE /\ tyC s i <> ST_EQUALITY /\ gone (yB s (n + i)) (yB s' (n + i))
    | ST_LOWER => wsC s i = ST_INACTIVE /\ (tyC s i <> ST_UNBOUNDED -> act n Am s' i - lC s' i = Rmin (act n Am s i - lC s i) 0)
    | ST_UPPER => wsC s i = ST_INACTIVE /\ (tyC s i <> ST_UNBOUNDED -> uC s' i - act n Am s' i = Rmin (uC s i - act n Am s i) 0)
    | _ => False
    end.

Lemma pass_arith e t a c : 0 < e -> t <= 1 -> (e <= c -> t <= Rmax a 0 / c) -> not_passed e a (a - Rmax t 0 * c).
Proof.
  intros He Ht Hb. unfold not_passed. set (h := Rmax t 0). assert (H0 : 0 <= h) by apply Rmax_r. assert (H1 : h <= 1) by (unfold h; apply Rmax_lub; lra).
  destruct (Rle_dec e c) as [L|L].
  - specialize (Hb L). assert (Q : t * c <= Rmax a 0) by (apply (Rmult_le_compat_r c) in Hb; [|lra]; unfold Rdiv in Hb; rewrite Rmult_assoc, Rinv_l in Hb by lra; lra).
    unfold h. destruct (Rle_dec t 0) as [T|T].
    + rewrite (Rmax_right t 0) by lra. unfold Rmin. destruct (Rle_dec a 0); lra.
    + rewrite (Rmax_left t 0) by lra. destruct (Rle_dec a 0) as [A|A].
      * rewrite (Rmax_right a 0) in Q by lra. exfalso. nra.
      * rewrite (Rmax_left a 0) in Q by lra. rewrite Rmin_right by lra. lra.
  - assert (h * c <= e) by (destruct (Rle_dec c 0); nra). pose proof (Rmin_l a 0). lra.
Qed.
Lemma stop_arith t a c : 0 < c -> t = Rmax a 0 / c -> a - Rmax t 0 * c = Rmin a 0.
Proof.
  intros Hc Et. assert (Q : t * c = Rmax a 0) by (rewrite Et; field; lra). destruct (Rle_dec a 0) as [A|A].
  - rewrite (Rmax_right a 0) in Q by lra. assert (t = 0) by nra. rewrite Rmax_right by lra. rewrite Rmin_left by lra. lra.
  - rewrite (Rmax_left a 0) in Q by lra. assert (0 < t) by nra. rewrite (Rmax_left t 0), Rmin_right by lra. lra.
Qed.
Lemma sign_arith e e0 t y w : 0 < e -> e0 <= 0 -> t <= 1 -> e0 <= y -> (e <= - w -> t <= y / - w) -> not_passed e y (y + Rmax t 0 * w).
Proof.
  intros He H0 Ht Hy Hb. replace (y + Rmax t 0 * w) with (y - Rmax t 0 * - w) by ring. apply pass_arith; auto. intros L. specialize (Hb L).
  eapply Rle_trans; [exact Hb|]. unfold Rdiv. apply Rmult_le_compat_r; [|apply Rmax_l]. left. apply Rinv_0_lt_compat. lra.
Qed.
Lemma gone_arith (ty : SubjectToType) (v : SubjectToStatus) e0 e t y w : 0 < e -> e0 <= 0 -> blocks ty v y (- w) e0 e -> t = y / - w -> y + Rmax t 0 * w = 0 \/ t < 0 /\ y + Rmax t 0 * w = y /\ Rabs y <= - e0.
Proof.
  intros He H0 Bk Et. assert (Hw : w <> 0) by (destruct Bk as (_ & [(_ & Q & _)|(_ & Q & _)]); lra). assert (Q : t * - w = y) by (rewrite Et; field; lra). destruct (Rlt_dec t 0) as [T|T].
  - right. split; [exact T|]. rewrite Rmax_right by lra. split; [ring|]. destruct Bk as (_ & [(_ & W & Y)|(_ & W & Y)]); unfold Rabs; destruct (Rcase_abs y); nra.
  - left. rewrite Rmax_left by lra. lra.
Qed.

Lemma inactive_dec (v : SubjectToStatus) : v = ST_INACTIVE \/ v <> ST_INACTIVE.
Proof using. destruct v; first [left; reflexivity | right; discriminate]. Qed.

(** the flags that say that active limits do not move are set for shifts up to EPS only *)
Definition flags_right (n m : Z) (s : qp N) (d : pshift (N := N)) (bCz bBz : bool) : Prop :=
  (bBz = true -> forall i, (0 <= i < n)%Z -> wsB s i <> ST_INACTIVE -> Rabs (zn 0 (sh_lb d) i) <= eps /\ Rabs (zn 0 (sh_ub d) i) <= eps) /\
  (bCz = true -> forall k, (0 <= k < m)%Z -> wsC s k <> ST_INACTIVE -> Rabs (zn 0 (sh_lbA d) k) <= eps /\ Rabs (zn 0 (sh_ubA d) k) <= eps).
Definition drift (bCz bBz : bool) : R := if bCz || bBz then eps else 0.
Lemma drift_arith (f : bool) del h a l dl : 0 <= h <= 1 -> Rabs (a - l) <= del -> (f = true -> Rabs dl <= eps) ->
  Rabs (a + h * (if f then 0 else dl) - (l + h * dl)) <= del + (if f then eps else 0).
Proof.
  intros Hh A D. destruct f.
  - specialize (D eq_refl). replace (a + h * 0 - (l + h * dl)) with (a - l + - (h * dl)) by ring. eapply Rle_trans; [apply Rabs_triang|]. rewrite Rabs_Ropp, Rabs_mult, (Rabs_right h) by lra.
    pose proof (Rabs_pos dl). nra.
  - replace (a + h * dl - (l + h * dl)) with (a - l) by ring. lra.
Qed.
Lemma step_core del n m Hm Am (s : qp N) d bCz bBz p dx dy dyA : 0 <= eps -> poised del n m Am s -> flags_right n m s d bCz bBz -> fits eps zero infty s d p -> unpacksP eps zero infty s p dx dy dyA ->
  linearisedP eps zero infty Am Hm s d bCz bBz dx dy dyA -> 0 < o_epsDen (p_opts s) -> o_epsNum (p_opts s) <= 0 ->
  exists b s', p_performStep (N := N) junk d p s = Ok (b, s') /\ poised (del + drift bCz bBz) n m Am s' /\ (forall i, (0 <= i < n)%Z -> gap n m Hm Am s' i = gap n m Hm Am s i) /\
    bk_t b <= 1 /\ moved n m (Rmax (bk_t b) 0) s s' d dx dy dyA /\ no_limit_passed n m Am s s' /\ no_sign_changed n m s s' /\
    (bk_idx b = (-1)%Z /\ bk_t b = 1 \/ bk_t b < 1 /\ stopped n m Am s s' b) /\
    p_bounds s' = p_bounds s /\ p_cons s' = p_cons s /\ p_opts s' = p_opts s.
Proof.
  intros E0 [SZ (l0 & l1 & WB) (k0 & k1 & WC) (M & HA & AS) SB SC (LB & LK) AX] (FB & FC) FT UN (LIB & LIC) ED EN.
  unfold p_performStep.
  destruct (wp_inv _ _ (ratioTests_ok n m Am M s l0 l1 k0 k1 d p dx dy dyA SZ WB WC HA AS FT UN SB ED)) as ((b, dAx) & E & LdA & VdA & (T1 & SF) & TA). rewrite E. cbn [bind].
  set (t := bk_t b) in *. set (s1 := up_b (N := N) (set_q_tau (N := N) t) s).
  assert (SZ1 : sized eps zero infty n m s1) by (destruct SZ; constructor; auto).
  destruct (wp_inv _ _ (applyStep_ok n m Am M s1 l0 l1 k0 k1 d p dx dy dyA SZ1 WB WC HA AS FT UN SB SC dAx LdA)) as (s' & E' & P). rewrite E'. cbn [bind].
  exists b, s'. split; [reflexivity|]. change (q_tau (p_b s1)) with t in P. set (h := Rmax t 0).
  assert (SV : pV s = n) by apply SZ. assert (SK : pC s = m) by apply SZ. rewrite SV in *. rewrite SK in *.
  (* the data of the new state *)
  assert (MV : moved n m h s s' d dx dy dyA /\ p_bounds s' = p_bounds s /\ p_cons s' = p_cons s /\ p_opts s' = p_opts s /\ p_A s' = p_A s /\ sized eps zero infty n m s').
  { destruct P as [(Tn & ->)|(Tp & x & y & g & lb & ub & lbA & ubA & Ax & Al & Au & -> & (L1 & L2 & L3 & L4 & L5 & L6 & L7 & L8 & L9 & L10) & VB & VC)].
    - assert (h = 0) by (unfold h; apply Rmax_right; lra). rewrite H. split; [|auto 6]. split; intros i Hi; rewrite !Rmult_0_l, !Rplus_0_r; auto 6.
    - assert (h = t) by (unfold h; apply Rmax_left; lra). rewrite H. split; [|repeat split; auto; try (constructor; auto)].
      + split; [exact VB|]. intros k Hk. destruct (VC k Hk) as (A1 & A2 & A3 & _). auto.
      + apply SZ. + apply SZ. }
  destruct MV as ((MB & MC) & EB & EC & EO & EA & SZ').
  assert (WSB : forall i, wsB s' i = wsB s i) by (intros i; unfold PropAuxP.wsB; now rewrite EB). assert (WSC : forall i, wsC s' i = wsC s i) by (intros i; unfold PropAuxP.wsC; now rewrite EC).
  assert (TYC : forall i, tyC s' i = tyC s i) by (intros i; unfold PropAuxP.tyC; now rewrite EC).
  assert (AC' : forall k, act n Am s' k = act n Am s k + h * matvec n Am dx k).
  { intros k. unfold PropAuxP.act, matvec. rewrite <- rsum_scal, <- rsum_plus. apply rsum_ext. intros j Hj. destruct (MB j Hj) as (-> & _). ring. }
  assert (T0 : t <= 1) by exact T1.
  assert (H01 : 0 <= h <= 1) by (split; [apply Rmax_r|apply Rmax_lub; lra]).
  assert (ST : poised (del + drift bCz bBz) n m Am s').
  { constructor.
    - exact SZ'.
    - rewrite EB. eauto.
    - rewrite EC. eauto.
    - rewrite EA. eauto.
    - intros i Hi. rewrite WSB. auto.
    - intros k Hk. rewrite WSC. auto.
    - split.
      + intros i Hi. rewrite WSB. destruct (MB i Hi) as (-> & -> & _ & -> & ->). destruct (LIB i Hi) as (_ & L). destruct (LB i Hi) as (B1 & B2 & B3). change (bst eps zero infty s i) with (wsB s i) in L.
        assert (DR : (if bBz then eps else 0) <= drift bCz bBz) by (unfold drift; destruct bBz, bCz; cbn; lra).
        split; [|split]; intros X; rewrite X in L; rewrite L.
        * eapply Rle_trans; [apply drift_arith; [exact H01|exact (B1 X)|]|lra]. intros Ez. apply (FB Ez i Hi). rewrite X. discriminate.
        * eapply Rle_trans; [apply drift_arith; [exact H01|exact (B2 X)|]|lra]. intros Ez. apply (FB Ez i Hi). rewrite X. discriminate.
        * rewrite (B3 X). ring.
      + intros k Hk. rewrite WSC, AC'. destruct (MC k Hk) as (-> & -> & ->). pose proof (LIC k Hk) as L. destruct (LK k Hk) as (B1 & B2 & B3). change (cst eps zero infty s k) with (wsC s k) in L.
        assert (DR : (if bCz then eps else 0) <= drift bCz bBz) by (unfold drift; destruct bBz, bCz; cbn; lra).
        split; [|split]; intros X; rewrite X in L; rewrite L.
        * eapply Rle_trans; [apply drift_arith; [exact H01|exact (B1 X)|]|lra]. intros Ez. apply (FC Ez k Hk). rewrite X. discriminate.
        * eapply Rle_trans; [apply drift_arith; [exact H01|exact (B2 X)|]|lra]. intros Ez. apply (FC Ez k Hk). rewrite X. discriminate.
        * rewrite (B3 X). ring.
    - intros k Hk. rewrite WSC, TYC. intros X. destruct (MC k Hk) as (_ & ML & MU). unfold slack_right. rewrite ML, MU, AC'. destruct (AX k Hk X) as (AX1 & AX2 & AX3).
      destruct P as [(Tn & Es)|(Tp & x & y & g & lb & ub & lbA & ubA & Ax & Al & Au & Es & (L1 & L2 & L3 & L4 & L5 & L6 & L7 & L8 & L9 & L10) & VB & VC)].
      + assert (h = 0) by (unfold h; apply Rmax_right; lra). rewrite H, !Rmult_0_l, !Rplus_0_r. rewrite Es. auto.
      + assert (Eh : h = t) by (unfold h; apply Rmax_left; lra). destruct (VC k Hk) as (_ & V1 & V2 & V3 & V4).
        assert (EAx : p_Ax s' = Ax) by (rewrite Es; reflexivity). assert (EAl : p_Ax_l s' = Al) by (rewrite Es; reflexivity). assert (EAu : p_Ax_u s' = Au) by (rewrite Es; reflexivity). rewrite EAx, EAl, EAu.
        destruct (inactive_dec (wsC s k)) as [I0|I0].
        * destruct X as [X|X]; [contradiction|]. destruct (V4 I0 X) as (A1 & A2 & A3). change (p_Ax s1) with (p_Ax s) in A1. change (p_Ax_l s1) with (p_Ax_l s) in A2. change (p_Ax_u s1) with (p_Ax_u s) in A3.
          rewrite (VdA k Hk I0) in A1, A2, A3. rewrite A1, A2, A3, AX1, AX2, AX3, Eh. repeat split; ring.
        * destruct (V3 I0) as (A1 & A2 & A3). assert (Ex : matvec n Am (zn 0 x) k = act n Am s k + h * matvec n Am dx k).
          { rewrite <- AC'. unfold matvec, PropAuxP.act. apply rsum_ext. intros j Hj. rewrite Es. reflexivity. }
          rewrite A2, A3, A1, V1, V2, Ex, Eh. change (lC s1 k) with (lC s k). change (uC s1 k) with (uC s k). auto. }
  assert (GP : forall i, (0 <= i < n)%Z -> gap n m Hm Am s' i = gap n m Hm Am s i).
  { intros i Hi. unfold gap. destruct (MB i Hi) as (_ & -> & -> & _). destruct (LIB i Hi) as (L & _). 
      replace (matvec n Hm (xB s') i) with (matvec n Hm (xB s) i + h * matvec n Hm dx i).
      2:{ unfold matvec. rewrite <- rsum_scal, <- rsum_plus. apply rsum_ext. intros j Hj. destruct (MB j Hj) as (-> & _). ring. }
      replace (rsum 0 m (fun k => Am k i * yB s' (n + k))) with (rsum 0 m (fun k => Am k i * yB s (n + k)) + h * rsum 0 m (fun k => Am k i * dyA k)).
      2:{ rewrite <- rsum_scal, <- rsum_plus. apply rsum_ext. intros k Hk. destruct (MC k Hk) as (-> & _). ring. }
      nra. }
  split; [exact ST|]. split; [exact GP|]. split; [exact T0|]. split; [split; assumption|]. split; [|split; [|split; [|auto]]].
  - (* limits *)
    split.
    + intros i Hi WS TY. destruct (MB i Hi) as (-> & _ & _ & -> & ->). split; intros NF.
      * replace (xB s i + h * dx i - (lB s i + h * zn 0 (sh_lb d) i)) with (xB s i - lB s i - h * (zn 0 (sh_lb d) i - dx i)) by ring.
        apply pass_arith; auto. intros L. apply (TA true ST_LOWER i). unfold hits. rewrite SV. repeat (split; [assumption|]). split; [|reflexivity]. split; [exact TY|]. left. split; [right; exact WS|]. split; [exact L|]. eapply Rle_trans; [exact EN|apply Rmax_r].
      * replace (uB s i + h * zn 0 (sh_ub d) i - (xB s i + h * dx i)) with (uB s i - xB s i - h * (dx i - zn 0 (sh_ub d) i)) by ring.
        apply pass_arith; auto. intros L. apply (TA true ST_UPPER i). unfold hits. rewrite SV. repeat (split; [assumption|]). split; [|reflexivity]. split; [exact TY|]. left. split; [right; exact WS|]. split; [exact L|]. eapply Rle_trans; [exact EN|apply Rmax_r].
    + intros k Hk WS TY TU. destruct (MC k Hk) as (_ & -> & ->). rewrite AC'. destruct (AX k Hk (or_intror TU)) as (_ & AX2 & AX3). split; intros NF.
      * replace (act n Am s k + h * matvec n Am dx k - (lC s k + h * zn 0 (sh_lbA d) k)) with (act n Am s k - lC s k - h * (zn 0 (sh_lbA d) k - matvec n Am dx k)) by ring.
        apply pass_arith; auto. intros L. apply (TA false ST_LOWER k). unfold hits. rewrite SK, AX2. repeat (split; [assumption|]). split; [|reflexivity]. split; [exact TY|]. left. split; [right; exact WS|]. split; [exact L|]. eapply Rle_trans; [exact EN|apply Rmax_r].
      * replace (uC s k + h * zn 0 (sh_ubA d) k - (act n Am s k + h * matvec n Am dx k)) with (uC s k - act n Am s k - h * (matvec n Am dx k - zn 0 (sh_ubA d) k)) by ring.
        apply pass_arith; auto. intros L. apply (TA false ST_UPPER k). unfold hits. rewrite SK, AX3. repeat (split; [assumption|]). split; [|reflexivity]. split; [exact TY|]. left. split; [right; exact WS|]. split; [exact L|]. eapply Rle_trans; [exact EN|apply Rmax_r].
  - (* signs *)
    split.
    + intros i Hi TY. destruct (MB i Hi) as (_ & -> & _). split; intros WS Y0.
      * apply sign_arith with (o_epsNum (p_opts s)); auto. intros L. apply (TA true ST_INACTIVE i). unfold hits. rewrite SV, WS. split; [exact Hi|]. split; [reflexivity|]. split; [|reflexivity]. split; [exact TY|]. left. auto.
      * replace (- (yB s i + h * dy i)) with (- yB s i + h * - dy i) by ring. apply sign_arith with (o_epsNum (p_opts s)); auto. intros L. apply (TA true ST_INACTIVE i). unfold hits. rewrite SV, WS. split; [exact Hi|]. split; [reflexivity|].
        split; [split; [exact TY|]; right; auto|]. field. lra.
    + intros k Hk TY. destruct (MC k Hk) as (-> & _). split; intros WS Y0.
      * apply sign_arith with (o_epsNum (p_opts s)); auto. intros L. apply (TA false ST_INACTIVE k). unfold hits. rewrite SK, WS. split; [exact Hk|]. split; [reflexivity|]. split; [|reflexivity]. split; [exact TY|]. left. auto.
      * replace (- (yB s (n + k) + h * dyA k)) with (- yB s (n + k) + h * - dyA k) by ring. apply sign_arith with (o_epsNum (p_opts s)); auto. intros L. apply (TA false ST_INACTIVE k). unfold hits. rewrite SK, WS. split; [exact Hk|]. split; [reflexivity|].
        split; [split; [exact TY|]; right; auto|]. field. lra.
  - (* what stopped it *)
    destruct SF as [SF|(SF1 & SF)]; [left; unfold t; rewrite SF; auto|right]. split; [exact SF1|]. unfold hits in SF. unfold stopped. fold t. set (i := bk_idx b) in *.
    assert (DE : forall ty v nu de, blocks ty v nu de (o_epsNum (p_opts s)) (o_epsDen (p_opts s)) -> de <> 0 /\ (v = ST_INACTIVE -> 0 < de)).
    { intros ty v nu de (_ & [(_ & Q & _)|(Ev & Q & _)]); split; try lra; intros X; try lra. congruence. }
    destruct (bk_isB b).
    + destruct SF as (Hi & SF). rewrite SV in Hi. split; [exact Hi|]. destruct (MB i Hi) as (-> & -> & _ & -> & ->). destruct (bk_st b); try contradiction.
      * destruct SF as (_ & WS & Bk & Et). split; [exact WS|]. apply DE in Bk as (_ & Pd). specialize (Pd WS).
        replace (xB s i + h * dx i - (lB s i + h * zn 0 (sh_lb d) i)) with (xB s i - lB s i - h * (zn 0 (sh_lb d) i - dx i)) by ring. apply stop_arith; auto.
      * destruct SF as (WS & Bk & Et). split; [intros X; rewrite X in WS; discriminate WS|]. split; [apply Bk|]. exact (gone_arith _ _ _ _ _ _ _ ED EN Bk Et).
      * destruct SF as (_ & WS & Bk & Et). split; [exact WS|]. apply DE in Bk as (_ & Pd). specialize (Pd WS).
        replace (uB s i + h * zn 0 (sh_ub d) i - (xB s i + h * dx i)) with (uB s i - xB s i - h * (dx i - zn 0 (sh_ub d) i)) by ring. apply stop_arith; auto.
    + destruct SF as (Hi & SF). rewrite SK in Hi. split; [exact Hi|]. destruct (MC i Hi) as (-> & -> & ->). rewrite AC'. destruct (bk_st b); try contradiction.
      * destruct SF as (_ & WS & Bk & Et). split; [exact WS|]. apply DE in Bk as (_ & Pd). specialize (Pd WS). intros TU. destruct (AX i Hi (or_intror TU)) as (_ & AX2 & AX3). rewrite AX2 in Et.
        replace (act n Am s i + h * matvec n Am dx i - (lC s i + h * zn 0 (sh_lbA d) i)) with (act n Am s i - lC s i - h * (zn 0 (sh_lbA d) i - matvec n Am dx i)) by ring. apply stop_arith; auto.
      * destruct SF as (WS & Bk & Et). split; [intros X; rewrite X in WS; discriminate WS|]. split; [apply Bk|]. exact (gone_arith _ _ _ _ _ _ _ ED EN Bk Et).
      * destruct SF as (_ & WS & Bk & Et). split; [exact WS|]. apply DE in Bk as (_ & Pd). specialize (Pd WS). intros TU. destruct (AX i Hi (or_intror TU)) as (_ & AX2 & AX3). rewrite AX3 in Et.
        replace (uC s i + h * zn 0 (sh_ubA d) i - (act n Am s i + h * matvec n Am dx i)) with (uC s i - act n Am s i - h * (matvec n Am dx i - zn 0 (sh_ubA d) i)) by ring. apply stop_arith; auto.
Qed.
Theorem C68_step del n m Hm Am (s : qp N) d bCz bBz p dx dy dyA : 0 <= eps -> steady del n m Hm Am s -> flags_right n m s d bCz bBz -> fits eps zero infty s d p -> unpacksP eps zero infty s p dx dy dyA ->
  linearisedP eps zero infty Am Hm s d bCz bBz dx dy dyA -> 0 < o_epsDen (p_opts s) -> o_epsNum (p_opts s) <= 0 ->
  exists b s', p_performStep (N := N) junk d p s = Ok (b, s') /\ steady (del + drift bCz bBz) n m Hm Am s' /\
    bk_t b <= 1 /\ moved n m (Rmax (bk_t b) 0) s s' d dx dy dyA /\ no_limit_passed n m Am s s' /\ no_sign_changed n m s s' /\
    (bk_idx b = (-1)%Z /\ bk_t b = 1 \/ bk_t b < 1 /\ stopped n m Am s s' b) /\
    p_bounds s' = p_bounds s /\ p_cons s' = p_cons s /\ p_opts s' = p_opts s.
Proof.
  intros E0 SD FR FT UN LI ED EN. apply steady_poised in SD as (PS & GP).
  destruct (step_core del n m Hm Am s d bCz bBz p dx dy dyA E0 PS FR FT UN LI ED EN) as (b & s' & E & PS' & GP' & R). exists b, s'. split; [exact E|]. split; [|exact R].
  apply steady_poised. split; [exact PS'|]. intros i Hi. rewrite GP' by exact Hi. now apply GP.
Qed.
End StepQ.

(** ** Example: the step of length 1 would pass the upper limit of constraint 0 *)
Definition sqN := RNumT (1/1000000) 0 1000.
Definition sqs : qp sqN :=
  let s := p_new (N := sqN) (fun n => repeat 0 (Z.to_nat n)) 2 2 HST_IDENTITY optDefault in
  let b := set_q_lb (N := sqN) [-5; 0] (set_q_ub (N := sqN) [5; 5] (set_q_g (N := sqN) [-1; 1] (set_q_x (N := sqN) [1; 0] (set_q_y (N := sqN) [0; 1; 0; 0] (set_q_bounds (N := sqN) (st_set_type ex_st [ST_BOUNDED; ST_BOUNDED]) (p_b s)))))) in
  set_p_A (N := sqN) (Some (ADense (N := sqN) (mkDense 2 2 2 [1; 0; 0; 1]))) (set_p_lbA (N := sqN) [-4; 0] (set_p_ubA (N := sqN) [2; 5]
  (set_p_Ax (N := sqN) [1; 0] (set_p_Ax_l (N := sqN) [5; 0] (set_p_Ax_u (N := sqN) [1; 5]
  (set_p_cons (N := sqN) (st_set_type ex_st [ST_BOUNDED; ST_BOUNDED]) (set_p_b (N := sqN) b s))))))).
Definition sqd : pshift (N := sqN) := mkS (N := sqN) [-3; 0] [0; 0] [0; 0] [0; 0] [0; 0].
Definition sqp : pstep (N := sqN) := mkP (N := sqN) [0; 0] [3; 0] [0; 0] [0; 0].
Definition sqx (i : Z) : R := if (i =? 0)%Z then 3 else 0.
Lemma sum2 (f : Z -> R) : rsum 0 2 f = f 0%Z + f 1%Z.
Proof. rewrite rsum_first by lia. rewrite rsum_first by lia. rewrite rsum_empty by lia. change (0 + 1)%Z with 1%Z. ring. Qed.
Lemma sqs_act i : (0 <= i < 2)%Z -> act (1/1000000) 0 1000 2 axA sqs i = zn 0 [1; 0] i.
Proof.
  intros Hi. unfold act. rewrite sum2. assert (i = 0 \/ i = 1)%Z as [-> | ->] by lia.
  - change (1 * 1 + 0 * 0 = 1). lra.
  - change (0 * 1 + 1 * 0 = 0). lra.
Qed.
Lemma sq_junk : junk_ok (N := sqN) (fun n => repeat 0 (Z.to_nat n)).
Proof. intros k Hk. unfold zlen. rewrite repeat_length. lia. Qed.
Lemma sqs_steady : steady (1/1000000) 0 1000 0 2 2 delta axA sqs.
Proof.
  assert (C2 : forall i, (0 <= i < 2)%Z -> i = 0%Z \/ i = 1%Z) by lia.
  constructor.
  - constructor; first [reflexivity|lia].
  - exists [0%Z], [1%Z]. destruct ex_st_wf. constructor; auto.
  - exists [0%Z], [1%Z]. destruct ex_st_wf. constructor; auto.
  - eexists. split; [reflexivity|]. split; [repeat split; cbn; unfold zlen; cbn; lia|]. repeat split.
  - intros i Hi. destruct (C2 i Hi) as [-> | ->]; [left|right; left]; reflexivity.
  - intros i Hi. destruct (C2 i Hi) as [-> | ->]; [left|right; left]; reflexivity.
  - intros i Hi. unfold matvec. rewrite !sum2. destruct (C2 i Hi) as [-> | ->].
    + change (1 * 1 + 0 * 0 + -1 = 0 + (1 * 0 + 0 * 0)). lra.
    + change (0 * 1 + 1 * 0 + 1 = 1 + (0 * 0 + 1 * 0)). lra.
  - split; intros i Hi; destruct (C2 i Hi) as [-> | ->]; (split; [|split]); intros X; try discriminate X; try reflexivity; rewrite ?sqs_act by lia; match goal with |- Rabs ?a <= 0 => change a with (0 - 0) end; rewrite Rminus_0_r, Rabs_R0; lra.
  - intros i Hi _. unfold slack_right. rewrite sqs_act by exact Hi. destruct (C2 i Hi) as [-> | ->].
    + change (1 = 1 /\ 5 = 1 - -4 /\ 1 = 2 - 1). lra.
    + change (0 = 0 /\ 0 = 0 - 0 /\ 5 = 5 - 0). lra.
Qed.
Example C68_step_ex : exists b s', p_performStep (N := sqN) (fun n => repeat 0 (Z.to_nat n)) sqd sqp sqs = Ok (b, s') /\ bk_t b < 1.
Proof.
  assert (C2 : forall i, (0 <= i < 2)%Z -> i = 0%Z \/ i = 1%Z) by lia.
  assert (ED : 0 < o_epsDen (p_opts sqs) < 1).
  { change (0 < Rlit 1 3 * (1/1000000) < 1). change (Rlit 1 3) with (IZR (1 * 10 ^ 3)). change (1 * 10 ^ 3)%Z with 1000%Z. lra. }
  destruct (C68_step (1/1000000) 0 1000 eq_refl (fun n => repeat 0 (Z.to_nat n)) sq_junk 0 2 2 delta axA sqs sqd false false sqp sqx (fun _ => 0) (fun _ => 0) ltac:(lra) sqs_steady) as (b & s' & E & _ & T & (MB & MC) & NL & _ & ST & _).
  - split; discriminate.
  - repeat split.
  - split; [|split; [|split]].
    + intros i Hi. change (0 <= i < 1)%Z in Hi. assert (i = 0%Z) as -> by lia. split; reflexivity.
    + intros i Hi. change (0 <= i < 1)%Z in Hi. assert (i = 0%Z) as -> by lia. split; reflexivity.
    + intros i Hi. change (0 <= i < 1)%Z in Hi. assert (i = 0%Z) as -> by lia. reflexivity.
    + reflexivity.
  - split; intros i Hi.
    + split; [|destruct (C2 i Hi) as [-> | ->]; reflexivity]. unfold matvec. change (pV sqs) with 2%Z. change (pC sqs) with 2%Z. rewrite !sum2. destruct (C2 i Hi) as [-> | ->].
      * change (1 * 3 + 0 * 0 + -3 = 0 + (1 * 0 + 0 * 0)). lra.
      * change (0 * 3 + 1 * 0 + 0 = 0 + (0 * 0 + 1 * 0)). lra.
    + destruct (C2 i Hi) as [-> | ->]; [reflexivity|]. unfold matvec. change (rsum 0 2 (fun j => axA 1 j * sqx j) = 0). rewrite sum2. change (0 * 3 + 1 * 0 = 0). lra.
  - apply ED.
  - change (- Rlit 1 3 * (1/1000000) <= 0). change (Rlit 1 3) with (IZR (1 * 10 ^ 3)). change (1 * 10 ^ 3)%Z with 1000%Z. lra.
  - exists b, s'. split; [exact E|]. destruct ST as [(_ & Et)|(Et & _)]; [exfalso|exact Et].
    destruct NL as (_ & NL). destruct (NL 0%Z ltac:(lia) eq_refl ltac:(discriminate) ltac:(discriminate)) as (_ & K). specialize (K eq_refl).
    rewrite Et, Rmax_left in MB, MC by lra. destruct (MC 0%Z ltac:(lia)) as (_ & _ & U). destruct (MB 0%Z ltac:(lia)) as (X0 & _). destruct (MB 1%Z ltac:(lia)) as (X1 & _).
    rewrite sqs_act in K by lia. rewrite U in K. unfold act in K. rewrite sum2, X0, X1 in K.
    change (not_passed (o_epsDen (p_opts sqs)) (2 - 1) (2 + 1 * 0 - (1 * (1 + 1 * 3) + 0 * (0 + 1 * 0)))) in K.
    unfold not_passed in K. rewrite Rmin_right in K by lra. lra.
Qed.

