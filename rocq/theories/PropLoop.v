(** C73: the whole loop of solveQP, with any number of changes of the working set (without flipping,
    tests for zero curvature, ramping, drift correction and refactorisation). *)
From Coq Require Import QArith.
From Verif Require Kkt.
From Verif Require Import PropBudget.
From Verif Require Import Base Types Num Options Indexlist IndexlistProofs Loops RSum LinSpec SafeLib SubjectTo SubjectToProofs SubjectToProofs2
  Flipper PropFlipper Matrices MatLib MatSafe CsLib PropDense PropSparse PropSparse2 LinAlg PropLinAlg QProblemB QPBSafe QPBSafe2 QPBEx QPBX1 QPBX2 QPBX3 QPBX4 QPBX5 QPBX7 QPBX8 QPBX11 PropHess PropAux PropRatio
  QProblem QProblem2 QProblem3 QProblem4 QProblem5 QPFrame PropNull QProblem6 QPFrame2 QPFrame3 QPFrame4 QPFrame5 PropSQ PropAuxP QPX1 QPX2 QPX3 QPX4 QPX5 QPX6 QPX7 QPX8 QPX9 QPX10 QPX11 QPX12 QPX14 QPX15 QPX16 QPX18 QPX19 QPX20 QPX21 QPX13 QPX17 PropTQ PropTQ2 PropStepP PropStepQ PropIter PropExch PropEnter PropChain PropLeave.
Local Open Scope R_scope.

Section Loop.
Variables eps zero infty : R.
Hypothesis zero_0 : zero = 0.
Hypothesis eps_pos : 0 < eps.
Notation N := (RNumT eps zero infty).
Notation arr := (list R).
Variable junk : Z -> arr.
Hypothesis J : junk_ok (N := N) junk.
Variable cpu : Z -> bool.
Notation tyB := (tyB eps zero infty). Notation tyC := (tyC eps zero infty).
Notation wsB := (wsB eps zero infty). Notation wsC := (wsC eps zero infty).
Notation xB := (xB eps zero infty). Notation yB := (yB eps zero infty).
Notation lB := (lB eps zero infty). Notation uB := (uB eps zero infty).
Notation lC := (lC eps zero infty). Notation uC := (uC eps zero infty).
Notation act := (act eps zero infty). Notation sized := (sized eps zero infty).
Notation ws := (ws eps zero infty). Notation kept := (kept eps zero infty). Notation statuses := (statuses eps zero infty).
Notation ty := (ty eps zero infty). Notation lo := (lo eps zero infty). Notation up := (up eps zero infty).
Notation in_order := (PropIter.in_order eps zero infty). Notation steady := (steady eps zero infty).
Notation poised := (poised eps zero infty). Notation gap := (gap eps zero infty).
Notation fits := (PropStepP.fits eps zero infty).
Notation request := (request).

(** ** What is meant *)
(** the settings considered *)
Definition plain_path (o : options N) : Prop :=
  (o_enableFlippingBounds o = false /\ o_enableNZCTests o = false /\ o_enableRamping o = false /\ o_enableDropInfeasibles o = false /\ (o_enableDriftCorrection o <= 0)%Z /\ (o_enableCholeskyRefactorisation o <= 0)%Z) /\
  o_epsLITests o = 0 /\ (0 <= o_numRefinementSteps o)%Z /\ 0 < o_epsDen o /\ o_epsNum o <= 0 /\ 0 <= o_terminationTolerance o.
(** there are limits of all kinds *)
Definition limited (s : qp N) : Prop :=
  (st_noLower (p_bounds s) = false /\ st_noUpper (p_bounds s) = false) /\ (st_noLower (p_cons s) = false /\ st_noUpper (p_cons s) = false).
(** every inactive one may become active, and lies between its limits up to [e] *)
Definition inside (e : R) (n m : Z) (Am : Z -> Z -> R) (s : qp N) : Prop := forall b i, in_range n m b i -> ty s b i <> ST_UNBOUNDED /\
  (ws s b i = ST_INACTIVE -> ty s b i <> ST_EQUALITY /\ lo s b i - e <= val n Am (xB s) b i <= up s b i + e).
Definition ordered (n m : Z) (s : qp N) : Prop := forall b i, in_range n m b i -> lo s b i <= up s b i.
(** the limits asked for *)
Definition rlo (r : request) (b : bool) (i : Z) : R := if b then zn 0 (r_lb r) i else zn 0 (r_lbA r) i.
Definition rup (r : request) (b : bool) (i : Z) : R := if b then zn 0 (r_ub r) i else zn 0 (r_ubA r) i.
(** feasible, stationary and complementary, up to tolerances *)
Definition meets (e tol G : R) (n m : Z) (Hm Am : Z -> Z -> R) (r : request) (s : qp N) : Prop :=
  (forall i, (0 <= i < n)%Z -> Rabs (matvec n Hm (xB s) i + zn 0 (r_g r) i - yB s i - rsum 0 m (fun k => Am k i * yB s (n + k)%Z)) <= G + tol * Rmax 1 (Rabs (zn 0 (r_g r) i))) /\
  forall b i, in_range n m b i -> let v := val n Am (xB s) b i in above e tol (rlo r b i) v /\ below e tol (rup r b i) v /\
    (yB s (posn n b i) = 0 \/ at_limit e tol (rlo r b i) v \/ at_limit e tol (rup r b i) v).

(** ** The invariant *)
Record on_path (e G : R) (n m : Z) (Hm Am : Z -> Z -> R) (o : options N) (s : qp N) : Prop := {
  op_io : in_order n m Am Hm s;
  op_po : poised e n m Am s;
  op_gap : forall i, (0 <= i < n)%Z -> Rabs (gap n m Hm Am s i) <= G;
  op_fl : limited s;
  op_in : inside e n m Am s;
  op_ord : ordered n m s;
  op_H : plainH (p_b s) = true;
  op_o : p_opts s = o
}.
Lemma poised_mono del del' n m Am (s : qp N) : del <= del' -> poised del n m Am s -> poised del' n m Am s.
Proof using.
  intros L [SZ B C A sB sC (LB & LC) X]. constructor; auto. split; intros i Hi.
  - destruct (LB i Hi) as (P & Q & T). split; [|split]; [intros W; specialize (P W); lra|intros W; specialize (Q W); lra|exact T].
  - destruct (LC i Hi) as (P & Q & T). split; [|split]; [intros W; specialize (P W); lra|intros W; specialize (Q W); lra|exact T].
Qed.
Lemma path_labelled e G n m Hm Am o (s : qp N) c v : on_path e G n m Hm Am o s -> on_path e G n m Hm Am o (labelled eps zero infty c v s).
Proof using.
  intros [IO [[] B C A sB sC L X] GP FL IN OD PH EO]. constructor; [apply in_order_labelled; exact IO|constructor; [constructor; assumption|assumption..]|exact GP|exact FL|exact IN|exact OD|exact PH|exact EO].
Qed.
Lemma path_status e G n m Hm Am o (s : qp N) v : on_path e G n m Hm Am o s -> on_path e G n m Hm Am o (up_b (N := N) (set_q_status (N := N) v) (set_p_b (N := N) (p_b s) s)).
Proof using.
  intros [IO [[] B C A sB sC L X] GP FL IN OD PH EO]. constructor; [apply in_order_status; exact IO|constructor; [constructor; assumption|assumption..]|exact GP|exact FL|exact IN|exact OD|exact PH|exact EO].
Qed.
Lemma path_relabel e G n m Hm Am o (s : qp N) v : on_path e G n m Hm Am o s -> on_path e G n m Hm Am o (up_b (N := N) (set_q_status (N := N) v) s).
Proof using.
  intros [IO [[] B C A sB sC L X] GP FL IN OD PH EO]. constructor; [apply in_order_relabel; exact IO|constructor; [constructor; assumption|assumption..]|exact GP|exact FL|exact IN|exact OD|exact PH|exact EO].
Qed.
Lemma poised_scr del n m Am (s : qp N) c : poised del n m Am s -> poised del n m Am (scr_to (N := N) c s).
Proof using. intros [[] B C A sB sC L X]. constructor; auto. constructor; auto. Qed.
Lemma step_frame d p b (s s' : qp N) : p_performStep (N := N) junk d p s = Ok (b, s') -> q_status (p_b s') = q_status (p_b s) /\ plainH (p_b s') = plainH (p_b s).
Proof using. intros E. pose proof (step_shape eps zero infty junk d p s) as P. rewrite E in P. cbn [pc] in P. destruct P as [-> |(x & y & g & lb & ub & lbA & ubA & Ax & Al & Au & ->)]; split; reflexivity. Qed.

(** ** One iteration, up to the change of the working set *)
Lemma inside_moved e n m Am (s s' : qp N) : 0 <= e -> limited s -> inside e n m Am s -> no_limit_passed eps zero infty n m Am s s' -> p_bounds s' = p_bounds s -> p_cons s' = p_cons s ->
  inside (e + o_epsDen (p_opts s)) n m Am s'.
Proof using.
  intros E0 ((F1 & F2) & F3 & F4) IN (LB & LC) EB EK b i Hi. destruct (IN b i Hi) as (TU & I).
  assert (EW : ws s' b i = ws s b i) by (destruct b; unfold PropEnter.ws, PropAuxP.wsB, PropAuxP.wsC; now rewrite ?EB, ?EK).
  assert (ET : ty s' b i = ty s b i) by (destruct b; unfold PropEnter.ty, PropAuxP.tyB, PropAuxP.tyC; now rewrite ?EB, ?EK).
  rewrite EW, ET. split; [exact TU|]. intros W. destruct (I W) as (TE & L & U). split; [exact TE|].
  assert (NP : forall z z', - e <= z -> not_passed (o_epsDen (p_opts s)) z z' -> - (e + o_epsDen (p_opts s)) <= z').
  { intros z z' Hz P. unfold not_passed in P. assert (- e <= Rmin z 0) by (apply Rmin_glb; lra). lra. }
  unfold in_range in Hi. destruct b; cbn [PropEnter.ws PropEnter.ty PropEnter.lo PropEnter.up val] in *.
  - destruct (LB i Hi W TE) as (P1 & P2). pose proof (NP (xB s i - lB s i) _ ltac:(lra) (P1 F1)). pose proof (NP (uB s i - xB s i) _ ltac:(lra) (P2 F2)). lra.
  - destruct (LC i Hi W TE TU) as (P1 & P2). unfold PropAuxP.act in P1, P2. pose proof (NP (rsum 0 n (fun j => Am i j * xB s j) - lC s i) _ ltac:(lra) (P1 F3)) as Q1. pose proof (NP (uC s i - rsum 0 n (fun j => Am i j * xB s j)) _ ltac:(lra) (P2 F4)) as Q2. lra.
Qed.

Definition asks (n m : Z) (r : request) : Prop :=
  (n <= zlen (r_g r) /\ n <= zlen (r_lb r) /\ n <= zlen (r_ub r) /\ m <= zlen (r_lbA r) /\ m <= zlen (r_ubA r))%Z /\ forall b i, in_range n m b i -> rlo r b i <= rup r b i.

Lemma path_rest e G n m Am Hm o (s : qp N) (r : request) nWSR iter (d : pshift (N := N)) (p : pstep (N := N)) : 0 <= e -> plain_path o ->
  on_path e G n m Hm Am o s -> asks n m r -> fits s d p ->
  let gn := r_g r in let lbn := Some (r_lb r) in let ubn := Some (r_ub r) in let lbAn := Some (r_lbA r) in let ubAn := Some (r_ubA r) in
  forall X, X = ('(d, bCz, bBz) <- p_determineDataShift (N := N) gn lbn ubn lbAn ubAn s d ;;
    '(r, p, s) <- p_stepDirection (N := N) d bCz bBz p s ;;
    if negb (r =r? SUCCESSFUL_RETURN) then Ok (Brk (r, iter, s)) else
    '(k, s) <- p_performStep (N := N) junk d p s ;;
    len <- p_getRelativeHomotopyLength (N := N) gn lbn ubn lbAn ubAn s ;;
    if nleb (n := N) len (o_terminationTolerance (p_opts s)) then Ok (Brk (SUCCESSFUL_RETURN, iter, up_b (N := N) (set_q_status (N := N) QPS_SOLVED) s))
    else go_on eps zero infty junk nWSR iter d p k s) ->
  let e' := e + eps + o_epsDen o in
  (exists rv s', rv <> SUCCESSFUL_RETURN /\ X = Ok (Brk (rv, iter, s'))) \/
  (exists s', X = Ok (Brk (SUCCESSFUL_RETURN, iter, s')) /\ q_status (p_b s') = QPS_SOLVED /\ on_path e' G n m Hm Am o s' /\
     near_data eps zero infty (o_terminationTolerance o) n m gn lbn ubn lbAn ubAn s') \/
  (exists b s' d' p', X = go_on eps zero infty junk nWSR iter d' p' b s' /\ on_path e' G n m Hm Am o s' /\ q_status (p_b s') = q_status (p_b s) /\ fits s' d' p' /\
     p_bounds s' = p_bounds s /\ p_cons s' = p_cons s /\ bk_t b < 1 /\ stopped eps zero infty n m Am s s' b).
Proof using zero_0 eps_pos J.
  intros E0 PP [IO PO GP FL IN OD PH EO0] AK FT gn lbn ubn lbAn ubAn X -> e'. destruct PP as (_ & _ & NR & ED & EN & TT). rewrite <- EO0 in NR, ED, EN, TT. pose proof IO as (l0 & l1 & k0 & k1 & I & (HE & _) & CW & RX).
  pose proof PO as [SZ _ _ _ sB sC _ _]. pose proof (sz_V _ _ _ _ _ _ SZ) as EV. pose proof (sz_C _ _ _ _ _ _ SZ) as EC.
  pose proof (pw_b _ _ _ _ _ _ _ _ _ _ _ (pi_w _ _ _ _ _ _ _ _ _ _ _ I)) as WB. pose proof (pw_c _ _ _ _ _ _ _ _ _ _ _ (pi_w _ _ _ _ _ _ _ _ _ _ _ I)) as WC.
  pose proof FT as (F1 & F2 & F3 & F4 & F5 & F6 & F7 & F8 & F9). rewrite EV, EC in *.
  destruct AK as ((P1 & P2 & P3 & P4 & P5) & RO). assert (AK : asked eps zero infty n m gn lbn ubn lbAn ubAn) by (repeat split; assumption).
  destruct (wp_inv _ _ (dataShift_ok eps zero infty n m gn lbn ubn lbAn ubAn s d l0 l1 k0 k1 SZ WB WC sB sC AK F1 F2 F3 F4 F5)) as (((d' & bCz) & bBz) & E & (G1 & G2 & G3 & G4 & G5) & SH & FR). rewrite E. cbn [bind].
  assert (SC : scratch eps zero infty s) by (unfold scratch; rewrite EV, EC; destruct CW as [C1 C2 C3 C4 C5 C6 C7]; exact (conj C1 (conj C2 (conj C3 (conj C4 (conj C5 (conj C6 C7))))))).
  assert (FT' : fits s d' p) by (unfold PropStepP.fits; rewrite EV, EC; auto 10).
  destruct (direction eps zero infty ltac:(lra) ltac:(lra) n m Am Hm s l0 l1 k0 k1 I HE RX d' bCz bBz p SC FT' NR ltac:(rewrite EV; exact sB) ltac:(rewrite EC; exact sC)) as (rv & p' & s'' & E1 & (c & -> & SC') & FT2 & P).
  rewrite E1. cbn [bind]. destruct P as [P|[(_ & _ & P)|(-> & (dx & dy & dyA & UN) & LI)]]; [left|exfalso; lra|right].
  { exists rv, (scr_to (N := N) c s). destruct P as [(-> & _)|(-> & _)]; (split; [discriminate|reflexivity]). }
  specialize (LI dx dy dyA UN).
  destruct (step_core eps zero infty zero_0 junk J e n m Hm Am (scr_to (N := N) c s) d' bCz bBz p' dx dy dyA ltac:(lra) (poised_scr e n m Am s c PO) FR FT2 UN LI ED EN)
    as (b & s' & E2 & ST & GE & T1 & (MB & MC) & NL & NS & SP & EB & EK & EO).
  match goal with |- context [negb ?q] => change (negb q) with false end. cbv iota. rewrite E2. cbn [bind].
  destruct (step_frame _ _ _ _ _ E2) as (EST & EPH). change (p_opts (scr_to (N := N) c s)) with (p_opts s) in EO. change (p_bounds (scr_to (N := N) c s)) with (p_bounds s) in EB. change (p_cons (scr_to (N := N) c s)) with (p_cons s) in EK.
  pose proof (o_sz _ _ _ _ _ _ _ _ ST) as SZ'.
  assert (H01 : 0 <= Rmax (bk_t b) 0 <= 1) by (split; [apply Rmax_r|apply Rmax_lub; lra]). set (h := Rmax (bk_t b) 0) in *. destruct SH as (SHB & SHC).
  assert (OD' : ordered n m s').
  { assert (CX : forall l u l2 u2, l <= u -> l2 <= u2 -> l + h * (l2 - l) <= u + h * (u2 - u)).
    { intros l u l2 u2 A B. assert (0 <= (1 - h) * (u - l)) by (apply Rmult_le_pos; lra). assert (0 <= h * (u2 - l2)) by (apply Rmult_le_pos; lra). lra. }
    intros bb i Hi. specialize (OD bb i Hi). specialize (RO bb i Hi). unfold in_range in Hi. destruct bb; cbn [PropEnter.lo PropEnter.up rlo rup] in *.
    - destruct (MB i Hi) as (_ & _ & _ & -> & ->). destruct (SHB i Hi) as (_ & -> & ->). apply CX; assumption.
    - destruct (MC i Hi) as (_ & -> & ->). destruct (SHC i Hi) as (-> & ->). apply CX; assumption. }
  assert (OP : on_path e' G n m Hm Am o s').
  { constructor.
    - refine (step_in_order eps zero infty junk n m Am Hm d' p' b (scr_to (N := N) c s) s' (in_order_scr eps zero infty n m Am Hm s c IO _) E2 SZ').
      destruct SC' as (C1 & C2 & C3 & C4 & C5 & C6 & C7). change (pV (scr_to (N := N) c s)) with (pV s) in *. change (pC (scr_to (N := N) c s)) with (pC s) in *. rewrite EV, EC in *. constructor; assumption.
    - eapply poised_mono; [|exact ST]. unfold e', drift. rewrite <- EO0. destruct (bCz || bBz); lra.
    - intros i Hi. rewrite (GE i Hi). exact (GP i Hi).
    - unfold limited. rewrite EB, EK. exact FL.
    - assert (I2 : inside (e + o_epsDen (p_opts s)) n m Am s') by (exact (inside_moved e n m Am (scr_to (N := N) c s) s' E0 FL IN NL EB EK)).
      intros bb i Hi. destruct (I2 bb i Hi) as (A & B). split; [exact A|]. intros W. destruct (B W) as (T & L). split; [exact T|]. unfold e'. rewrite <- EO0. lra.
    - exact OD'.
    - rewrite EPH. exact PH.
    - rewrite EO. exact EO0. }
  destruct (wp_inv _ _ (length_ok eps zero infty n m gn lbn ubn lbAn ubAn s' SZ' AK)) as (len & E3 & ND). rewrite E3. cbn [bind].
  rewrite EO, EO0. rewrite EO0 in TT. rnum. destruct (Rleb_spec len (o_terminationTolerance o)) as [L|L].
  - left. exists (up_b (N := N) (set_q_status (N := N) QPS_SOLVED) s'). split; [reflexivity|]. split; [reflexivity|]. split; [apply path_relabel; exact OP|].
    destruct ND as (N1 & N2 & N3 & N4 & N5). split; [intros i Hi; exact (near_mono _ _ _ _ L (N1 i Hi))|]. repeat split; eapply near_opt_mono; try exact L; assumption.
  - right. exists b, s', d', p'. split; [reflexivity|]. split; [exact OP|]. split; [exact EST|].
    assert (EV' : pV s' = n) by apply SZ'. assert (EC' : pC s' = m) by apply SZ'.
    split; [unfold PropStepP.fits in FT2 |- *; change (pV (scr_to (N := N) c s)) with (pV s) in FT2; change (pC (scr_to (N := N) c s)) with (pC s) in FT2; rewrite EV, EC in FT2; rewrite EV', EC'; exact FT2|].
    split; [exact EB|]. split; [exact EK|]. destruct SP as [(_ & Et)|SP]; [exfalso|exact SP].
    unfold h in MB, MC. rewrite Et in MB, MC. rewrite Rmax_left in MB, MC by lra.
    rewrite (length_0 eps zero infty n m gn lbn ubn lbAn ubAn s' SZ' AK) in E3; [injection E3 as <-; lra|]. split.
    + intros i Hi. destruct (MB i Hi) as (_ & _ & -> & -> & ->). destruct (SHB i Hi) as (-> & -> & ->).
      change (zn 0 (q_g (p_b (scr_to (N := N) c s))) i) with (zn 0 (q_g (p_b s)) i). change (lB (scr_to (N := N) c s) i) with (lB s i). change (uB (scr_to (N := N) c s) i) with (uB s i). repeat split; ring.
    + intros k Hk. destruct (MC k Hk) as (_ & -> & ->). destruct (SHC k Hk) as (-> & ->).
      change (lC (scr_to (N := N) c s) k) with (lC s k). change (uC (scr_to (N := N) c s) k) with (uC s k). split; ring.
Qed.

(** ** The change of the working set *)
Definition sg (g : arr) (s : qp N) : qp N := up_b (N := N) (set_q_g (N := N) g) s.
Lemma sg_in_order n m Am Hm (s : qp N) g : zlen g = n -> in_order n m Am Hm s -> in_order n m Am Hm (sg g s).
Proof using.
  intros L (l0 & l1 & k0 & k1 & I & HD & CW & RX). exists l0, l1, k0, k1. split; [|split; [exact HD|split; [exact CW|exact RX]]].
  destruct I as [W F Y A T]. constructor; [destruct W; constructor; assumption|destruct F; constructor; assumption|exact Y|exact A|exact T].
Qed.
Lemma sg_poised del n m Am (s : qp N) g : zlen g = n -> poised del n m Am s -> poised del n m Am (sg g s).
Proof using. intros L [[] B C A sB sC LM X]. constructor; [constructor; assumption|assumption..]. Qed.
Lemma sg_poised_inv del n m Am (s : qp N) g : zlen (q_g (p_b s)) = n -> poised del n m Am (sg g s) -> poised del n m Am s.
Proof using. intros L [[] B C A sB sC LM X]. constructor; [constructor; assumption|assumption..]. Qed.
Lemma sg_kept (s s' : qp N) g : kept s s' -> kept (sg g s) (sg g s').
Proof using. intros ((K1 & K2 & K3) & K). split; [split; [exact K1|split; [reflexivity|exact K3]]|exact K]. Qed.
(** the gradient for which the iterate is stationary *)
Lemma straight del n m Hm Am (s : qp N) : poised del n m Am s -> exists gl, zlen gl = n /\ (forall i, (0 <= i < n)%Z -> zn 0 gl i = zn 0 (q_g (p_b s)) i - gap n m Hm Am s i) /\ steady del n m Hm Am (sg gl s).
Proof using.
  intros PO. assert (Hn : (0 <= n)%Z) by (rewrite <- (sz_g _ _ _ _ _ _ (o_sz _ _ _ _ _ _ _ _ PO)); apply zlen_nonneg).
  set (f := fun i => zn 0 (q_g (p_b s)) i - gap n m Hm Am s i). exists (map f (zseq 0 n)).
  assert (L : zlen (map f (zseq 0 n)) = n) by (rewrite zlen_map, zlen_zseq; lia).
  assert (V : forall i, (0 <= i < n)%Z -> zn 0 (map f (zseq 0 n)) i = f i) by (intros i Hi; rewrite (zn_map f 0%Z 0) by (rewrite zlen_zseq; lia); rewrite zn_zseq by lia; reflexivity).
  split; [exact L|]. split; [exact V|]. apply steady_poised. split; [apply sg_poised; assumption|]. intros i Hi.
  change (matvec n Hm (xB s) i + zn 0 (map f (zseq 0 n)) i - yB s i - rsum 0 m (fun k => Am k i * yB s (n + k)%Z) = 0). rewrite V by exact Hi. unfold f, PropStepQ.gap. ring.
Qed.
Lemma bent del n m Hm Am (s : qp N) gl : zlen (q_g (p_b s)) = n -> steady del n m Hm Am (sg gl s) -> poised del n m Am s /\ forall i, (0 <= i < n)%Z -> gap n m Hm Am s i = zn 0 (q_g (p_b s)) i - zn 0 gl i.
Proof using.
  intros L SD. apply steady_poised in SD as (PO & GZ). split; [exact (sg_poised_inv _ _ _ _ _ _ L PO)|]. intros i Hi. specialize (GZ i Hi).
  change (matvec n Hm (xB s) i + zn 0 gl i - yB s i - rsum 0 m (fun k => Am k i * yB s (n + k)%Z) = 0) in GZ. unfold PropStepQ.gap. lra.
Qed.
Lemma kept_vals n Am (s s' : qp N) : kept s s' -> forall b i, lo s' b i = lo s b i /\ up s' b i = up s b i /\ ty s' b i = ty s b i /\ val n Am (xB s') b i = val n Am (xB s) b i.
Proof using.
  intros ((K1 & _ & K3 & K4) & (_ & K6 & K7 & _) & K11 & K12 & _) b i. destruct b; cbn [PropEnter.lo PropEnter.up PropEnter.ty val]; unfold PropAuxP.lB, PropAuxP.uB, PropAuxP.lC, PropAuxP.uC, PropAuxP.tyB, PropAuxP.tyC, PropAuxP.xB;
    rewrite ?K1, ?K3, ?K4, ?K6, ?K7, ?K11, ?K12; auto.
Qed.
Lemma Rabs_le_both a b : Rabs a <= b -> - b <= a <= b.
Proof using. intros H. pose proof (Rle_abs a). pose proof (Rle_abs (- a)) as Q. rewrite Rabs_Ropp in Q. lra. Qed.
Lemma path_changed e G G' n m Hm Am o (s s' : qp N) v : on_path e G n m Hm Am o s -> in_order n m Am Hm s' -> poised e n m Am s' -> (forall i, (0 <= i < n)%Z -> Rabs (gap n m Hm Am s' i) <= G') ->
  kept s s' -> p_opts s' = p_opts s -> QPFrame5.fr (N := N) s s' -> statuses s s' v ->
  (forall b i, in_range n m b i -> v b i = ST_INACTIVE -> ws s b i = ST_INACTIVE \/ (is_on (ws s b i) /\ ty s b i <> ST_EQUALITY)) -> on_path e G' n m Hm Am o s'.
Proof using.
  intros [IO PO GP FL IN OD PH EO] IO' PO' GP' KP EO' (F1 & F2 & _ & F3) ST V. pose proof (kept_vals n Am s s' KP) as KV. constructor; auto.
  - destruct FL as ((A & B) & C & D), F1 as (X1 & X2), F2 as (X3 & X4). unfold limited. rewrite X1, X2, X3, X4. auto.
  - intros b i Hi. destruct (KV b i) as (E1 & E2 & E3 & E4). rewrite E1, E2, E3, E4. destruct (IN b i Hi) as (TU & I). split; [exact TU|]. rewrite (ST b i) by (unfold in_range in Hi; destruct b; lia). intros W.
    destruct (V b i Hi W) as [W0|(ON & TE)]; [exact (I W0)|]. split; [exact TE|]. specialize (OD b i Hi). destruct PO as [_ _ _ _ _ _ (LB & LC) _].
    assert (AL : (ws s b i = ST_LOWER -> Rabs (val n Am (xB s) b i - lo s b i) <= e) /\ (ws s b i = ST_UPPER -> Rabs (val n Am (xB s) b i - up s b i) <= e)).
    { unfold in_range in Hi. destruct b; [destruct (LB i Hi) as (A & B & _)|destruct (LC i Hi) as (A & B & _)]; split; [exact A|exact B|exact A|exact B]. }
    destruct AL as (A1 & A2). destruct ON as [O|O]; [specialize (A1 O); apply Rabs_le_both in A1; lra|specialize (A2 O); apply Rabs_le_both in A2; lra].
  - intros b i Hi. destruct (KV b i) as (E1 & E2 & _). rewrite E1, E2. exact (OD b i Hi).
  - congruence.
Qed.

Lemma path_enter e G n m Hm Am o (s s' : qp N) (k : block (N := N)) : plain_path o -> on_path e G n m Hm Am o s -> is_on (bk_st k) -> in_range n m (bk_isB k) (bk_idx k) -> ws s (bk_isB k) (bk_idx k) = ST_INACTIVE ->
  at_its_limit eps zero infty e n Am s (bk_isB k) (bk_idx k) (bk_st k) -> p_changeActiveSet (N := N) junk k s = Ok (SUCCESSFUL_RETURN, s') -> on_path e G n m Hm Am o s'.
Proof using zero_0 eps_pos J.
  intros ((P1 & P2 & P3 & P4 & P5 & P6) & P7 & P8 & P9 & P10 & P11) OP ON RG INA AL E. pose proof OP as [IO PO GP FL IN OD PH EO]. rewrite <- EO in P1, P2, P3, P4, P7, P8, P9, P10.
  assert (LS : li_set eps zero infty n Hm s) by (split; [split; [exact P4|split; [lra|split; [exact P9|intros _; exact P8]]]|right; exact P7]).
  destruct (C70_entering eps zero infty zero_0 eps_pos junk J n m Am Hm s k IO (o_sB _ _ _ _ _ _ _ _ PO) LS ON RG INA) as (r & s2 & E' & IO' & KP & EO' & O). rewrite E in E'. injection E' as <- <-.
  pose proof (QPFrame5.fr_change (N := N) junk k s P4 P1 P2) as FR. rewrite E in FR. cbn [pc snd] in FR.
  assert (O' : entered eps zero infty n m Am (bk_isB k) (bk_idx k) (bk_st k) s s' \/ exists w wA b1 q, swapped eps zero infty n m Am (bk_isB k) (bk_idx k) (bk_st k) s s' w wA b1 q).
  { destruct O as [(_ & O)|[(B & _)|(B & _)]]; [exact O|destruct (bk_isB k); discriminate B|discriminate B]. }
  destruct (straight e n m Hm Am s PO) as (gl & Lg & Vg & SD).
  assert (Lg0 : zlen (q_g (p_b s)) = n) by apply (o_sz _ _ _ _ _ _ _ _ PO). assert (EG : q_g (p_b s') = q_g (p_b s)) by apply KP.
  destruct (IN _ _ RG) as (TU & _).
  assert (SD' : steady e n m Hm Am (sg gl s')).
  { refine (C70_stays_optimal eps zero infty e n m Am Hm (sg gl s) (sg gl s') (bk_isB k) (bk_idx k) (bk_st k) (sg_in_order _ _ _ _ _ _ Lg IO') SD (sg_kept _ _ _ KP) RG ON INA P9 TU AL _).
    destruct O' as [O'|O']; [left; exact O'|right]. split; [right; split; [exact P7|exact PH]|exact O']. }
  apply bent in SD' as (PO' & GP'); [|rewrite EG; exact Lg0].
  assert (GP2 : forall i, (0 <= i < n)%Z -> Rabs (gap n m Hm Am s' i) <= G) by (intros i Hi; rewrite GP' by exact Hi; rewrite EG, Vg by exact Hi; match goal with |- Rabs ?u <= _ => replace u with (gap n m Hm Am s i) by ring end; exact (GP i Hi)).
  assert (NI : bk_st k <> ST_INACTIVE) by (destruct ON as [-> | ->]; discriminate).
  destruct O' as [(_ & _ & ST)|(w & wA & b1 & q & _ & CA & _ & _ & _ & ST)].
  - apply (path_changed e G G n m Hm Am o s s' _ OP IO' PO' GP2 KP EO' FR ST). intros b i Hi W. destruct (is_at _ _ b i); [contradiction|left; exact W].
  - apply (path_changed e G G n m Hm Am o s s' _ OP IO' PO' GP2 KP EO' FR ST). intros b i Hi W. destruct (is_at (bk_isB k) _ b i); [contradiction|]. destruct (is_at b1 q b i) eqn:A; [|left; exact W].
    apply is_at_spec in A as (-> & ->). right. unfold PropExch.cand in CA. destruct b1; destruct CA as (_ & AC & (NE & _)); (split; [|exact NE]).
    + cbn [PropEnter.ws]. destruct (o_sB _ _ _ _ _ _ _ _ PO q Hi) as [X|[X|X]]; rewrite X in *; [discriminate AC|left; reflexivity|right; reflexivity].
    + cbn [PropEnter.ws]. destruct (o_sC _ _ _ _ _ _ _ _ PO q Hi) as [X|[X|X]]; rewrite X in *; [discriminate AC|left; reflexivity|right; reflexivity].
Qed.

Lemma path_leave e G B n m Hm Am o (s s' : qp N) (k : block (N := N)) : plain_path o -> on_path e G n m Hm Am o s -> p_noUpdate s = false -> bk_st k = ST_INACTIVE -> in_range n m (bk_isB k) (bk_idx k) ->
  is_on (ws s (bk_isB k) (bk_idx k)) -> ty s (bk_isB k) (bk_idx k) <> ST_EQUALITY -> Rabs (yB s (posn n (bk_isB k) (bk_idx k))) <= - o_epsNum o ->
  (forall b i j, in_range n m b i -> (0 <= j < n)%Z -> Rabs (row Am b i j) <= B) ->
  p_changeActiveSet (N := N) junk k s = Ok (SUCCESSFUL_RETURN, s') -> on_path e (G + - o_epsNum o * B) n m Hm Am o s'.
Proof using zero_0 eps_pos J.
  intros ((P1 & P2 & P3 & P4 & P5 & P6) & P7 & P8 & P9 & P10 & P11) OP NU EI RG ON TE YE BD E. pose proof OP as [IO PO GP FL IN OD PH EO]. rewrite <- EO in P1, P2, P4.
  destruct (C72_leaving eps zero infty zero_0 eps_pos junk J n m Am Hm s k IO NU P1 P2 EI RG ON) as (r & s2 & E' & O). rewrite E in E'. injection E' as <- <-.
  destruct O as [(_ & IO' & KP & EO' & _ & LO)|(Bad & _)]; [|discriminate Bad].
  pose proof (QPFrame5.fr_change (N := N) junk k s P4 P1 P2) as FR. rewrite E in FR. cbn [pc snd] in FR.
  destruct (straight e n m Hm Am s PO) as (gl & Lg & Vg & SD).
  assert (Lg0 : zlen (q_g (p_b s)) = n) by apply (o_sz _ _ _ _ _ _ _ _ PO). assert (EG : q_g (p_b s') = q_g (p_b s)) by apply KP.
  assert (Hn : (0 <= n)%Z) by (rewrite <- Lg0; apply zlen_nonneg).
  set (f := fun j => zn 0 gl j - yB s (posn n (bk_isB k) (bk_idx k)) * row Am (bk_isB k) (bk_idx k) j).
  assert (L2 : zlen (map f (zseq 0 n)) = n) by (rewrite zlen_map, zlen_zseq; lia).
  assert (V2 : forall i, (0 <= i < n)%Z -> zn 0 (map f (zseq 0 n)) i = f i) by (intros i Hi; rewrite (zn_map f 0%Z 0) by (rewrite zlen_zseq; lia); rewrite zn_zseq by lia; reflexivity).
  assert (SD2 : steady e n m Hm Am (sg (map f (zseq 0 n)) s')).
  { pose proof (C72_stays_optimal eps zero infty e n m Am Hm (sg gl s) (sg gl s') (bk_isB k) (bk_idx k) _ (sg_in_order _ _ _ _ _ _ Lg IO') SD (sg_kept _ _ _ KP) RG LO L2 V2) as [[] X2 X3 X4 X5 X6 X7 X8 X9]. constructor; [constructor; assumption|assumption..]. }
  apply bent in SD2 as (PO' & GP'); [|rewrite EG; exact Lg0].
  assert (GP2 : forall i, (0 <= i < n)%Z -> Rabs (gap n m Hm Am s' i) <= G + - o_epsNum o * B).
  { intros i Hi. rewrite GP' by exact Hi. rewrite EG, V2 by exact Hi. unfold f. rewrite Vg by exact Hi. match goal with |- Rabs ?u <= _ => replace u with (gap n m Hm Am s i + yB s (posn n (bk_isB k) (bk_idx k)) * row Am (bk_isB k) (bk_idx k) i) by ring end.
    eapply Rle_trans; [apply Rabs_triang|]. apply Rplus_le_compat; [exact (GP i Hi)|]. rewrite Rabs_mult. apply Rmult_le_compat; [apply Rabs_pos|apply Rabs_pos|exact YE|apply BD; assumption]. }
  apply (path_changed e G _ n m Hm Am o s s' _ OP IO' PO' GP2 KP EO' FR (proj1 LO)). intros b i Hi W. destruct (is_at _ _ b i) eqn:A; [|left; exact W]. apply is_at_spec in A as (-> & ->). right. split; assumption.
Qed.

(** ** One iteration *)
Lemma after_plain v iter (s : qp N) : plain_path (p_opts s) -> p_afterChange (N := N) v iter s = Ok (SUCCESSFUL_RETURN, up_b (N := N) (set_q_status (N := N) QPS_HOMOTOPYQPSOLVED) s).
Proof using.
  intros ((_ & _ & RA & _ & DC & CR) & _). unfold p_afterChange. cbv zeta. destruct (Z.ltb_spec 0 (o_enableCholeskyRefactorisation (p_opts s))); [lia|]. cbn [andb bind].
  change (negb (SUCCESSFUL_RETURN =r? SUCCESSFUL_RETURN)) with false. cbv iota. set (s1 := up_b (N := N) _ s). change (p_opts s1) with (p_opts s). rewrite RA, !andb_false_r.
  destruct (Z.ltb_spec 0 (o_enableDriftCorrection (p_opts s))); [lia|]. reflexivity.
Qed.
Lemma path_iter e G B n m Am Hm o (s : qp N) (r : request) nWSR performed iter (d : pshift (N := N)) (p : pstep (N := N)) : 0 <= e -> 0 <= B -> plain_path o ->
  (forall b i j, in_range n m b i -> (0 <= j < n)%Z -> Rabs (row Am b i j) <= B) -> on_path e G n m Hm Am o s -> asks n m r -> fits s d p ->
  let e' := e + eps + o_epsDen o in
  pc (p_solveIter (N := N) junk cpu (r_g r) (Some (r_lb r)) (Some (r_ub r)) (Some (r_lbA r)) (Some (r_ubA r)) nWSR performed iter (s, d, p)) (fun c => match c with
    | Next (s', d', p') => on_path e' (G + - o_epsNum o * B) n m Hm Am o s' /\ fits s' d' p'
    | Brk (rv, it, s') => rv = SUCCESSFUL_RETURN -> it = iter /\ q_status (p_b s') = QPS_SOLVED /\ on_path e' G n m Hm Am o s' /\
        near_data eps zero infty (o_terminationTolerance o) n m (r_g r) (Some (r_lb r)) (Some (r_ub r)) (Some (r_lbA r)) (Some (r_ubA r)) s'
    end).
Proof using zero_0 eps_pos J.
  intros E0 B0 PP BD OP AK FT e'. pose proof PP as (_ & _ & _ & ED & EN & _).
  assert (REST : forall s1 : qp N, on_path e G n m Hm Am o s1 -> fits s1 d p -> q_status (p_b s1) = QPS_PERFORMINGHOMOTOPY ->
    pc ('(d, bCz, bBz) <- p_determineDataShift (N := N) (r_g r) (Some (r_lb r)) (Some (r_ub r)) (Some (r_lbA r)) (Some (r_ubA r)) s1 d ;;
    '(rv, p, s) <- p_stepDirection (N := N) d bCz bBz p s1 ;;
    if negb (rv =r? SUCCESSFUL_RETURN) then Ok (Brk (rv, iter, s)) else
    '(k, s) <- p_performStep (N := N) junk d p s ;;
    len <- p_getRelativeHomotopyLength (N := N) (r_g r) (Some (r_lb r)) (Some (r_ub r)) (Some (r_lbA r)) (Some (r_ubA r)) s ;;
    if nleb (n := N) len (o_terminationTolerance (p_opts s)) then Ok (Brk (SUCCESSFUL_RETURN, iter, up_b (N := N) (set_q_status (N := N) QPS_SOLVED) s))
    else go_on eps zero infty junk nWSR iter d p k s) (fun c => match c with
    | Next (s', d', p') => on_path e' (G + - o_epsNum o * B) n m Hm Am o s' /\ fits s' d' p'
    | Brk (rv, it, s') => rv = SUCCESSFUL_RETURN -> it = iter /\ q_status (p_b s') = QPS_SOLVED /\ on_path e' G n m Hm Am o s' /\
        near_data eps zero infty (o_terminationTolerance o) n m (r_g r) (Some (r_lb r)) (Some (r_ub r)) (Some (r_lbA r)) (Some (r_ubA r)) s'
    end)).
  { clear s OP FT. intros s OP FT QS. destruct (path_rest e G n m Am Hm o s r nWSR iter d p E0 PP OP AK FT _ eq_refl) as [(rv & s' & NE & ->)|[(s' & -> & Q & OP' & ND)|(b & s' & d' & p' & -> & OP' & QS' & FT' & EB & EK & T1 & SP)]].
    - cbn [pc]. intros E. contradiction.
    - cbn [pc]. intros _. auto.
    - fold e' in OP'. unfold go_on. destruct (p_changeActiveSet (N := N) junk b s') as [(rv, s2)| |] eqn:EC; try exact I. cbn [bind].
      destruct (rv =r? SUCCESSFUL_RETURN) eqn:Er; cbn [negb].
      2:{ destruct (q_infeasible (p_b s2)); [cbn [pc]; discriminate|]. destruct (q_unbounded (p_b s2)); [cbn [pc]; discriminate|]. cbn [pc]. intros ->. discriminate Er. }
      apply rv_eqb_eq in Er. subst rv.
      assert (WSB : forall i, wsB s' i = wsB s i) by (intros i; unfold PropAuxP.wsB; now rewrite EB). assert (WSC : forall i, wsC s' i = wsC s i) by (intros i; unfold PropAuxP.wsC; now rewrite EK).
      assert (TYB : forall i, tyB s' i = tyB s i) by (intros i; unfold PropAuxP.tyB; now rewrite EB). assert (TYC : forall i, tyC s' i = tyC s i) by (intros i; unfold PropAuxP.tyC; now rewrite EK).
      assert (NU : p_noUpdate s' = false) by (unfold p_noUpdate, noUpdate; rewrite QS', QS; reflexivity).
      assert (OPT : p_opts s = o) by apply OP. assert (OPT' : p_opts s' = o) by apply OP'.
      assert (CL : forall a a', - e <= a -> a' = Rmin a 0 -> Rabs a' <= e') by (intros a a' Ha ->; assert (- e <= Rmin a 0) by (apply Rmin_glb; lra); pose proof (Rmin_r a 0); apply Rabs_le; unfold e'; lra).
      assert (GO : forall y y', y' = 0 \/ bk_t b < 0 /\ y' = y /\ Rabs y <= - o_epsNum (p_opts s) -> Rabs y' <= - o_epsNum o) by (intros y y' [-> |(_ & -> & Q)]; [rewrite Rabs_R0; lra|rewrite <- OPT; exact Q]).
      assert (IMP : on_path e' G n m Hm Am o s2 -> on_path e' (G + - o_epsNum o * B) n m Hm Am o s2).
      { intros [X1 X2 X3 X4 X5 X6 X7 X8]. constructor; auto. intros i Hi. specialize (X3 i Hi). assert (0 <= - o_epsNum o * B) by (apply Rmult_le_pos; lra). lra. }
      assert (ONI : forall v, settled v -> v <> ST_INACTIVE -> is_on v) by (intros v [X|[X|X]] NI; [contradiction|left; exact X|right; exact X]).
      assert (OP2 : on_path e' (G + - o_epsNum o * B) n m Hm Am o s2).
      { pose proof (op_in _ _ _ _ _ _ _ _ OP) as IN. unfold stopped in SP. cbv zeta in SP. destruct (bk_isB b) eqn:Eb; destruct SP as (Hi & SP).
        - assert (RG : in_range n m (bk_isB b) (bk_idx b)) by (rewrite Eb; exact Hi). destruct (bk_st b) eqn:Es; try contradiction.
          + destruct SP as (W & X). apply IMP, (path_enter e' G n m Hm Am o s' s2 b PP OP'); [rewrite Es; left; reflexivity|exact RG|rewrite Eb; cbn [PropEnter.ws]; rewrite WSB; exact W| |exact EC].
            rewrite Eb, Es. split; [intros _|discriminate]. cbn [val PropEnter.lo]. destruct (IN true (bk_idx b) Hi) as (_ & I1). destruct (I1 W) as (_ & L & U). cbn [val PropEnter.lo PropEnter.up] in L, U. apply (CL (xB s (bk_idx b) - lB s (bk_idx b))); [lra|exact X].
          + destruct SP as (NI & TE & G1). apply (path_leave e' G B n m Hm Am o s' s2 b PP OP' NU Es RG); auto; rewrite Eb; cbn [PropEnter.ws PropEnter.ty posn].
            * rewrite WSB. apply ONI; [apply (o_sB _ _ _ _ _ _ _ _ (op_po _ _ _ _ _ _ _ _ OP)); exact Hi|exact NI].
            * rewrite TYB. exact TE.
            * exact (GO _ _ G1).
          + destruct SP as (W & X). apply IMP, (path_enter e' G n m Hm Am o s' s2 b PP OP'); [rewrite Es; right; reflexivity|exact RG|rewrite Eb; cbn [PropEnter.ws]; rewrite WSB; exact W| |exact EC].
            rewrite Eb, Es. split; [discriminate|intros _]. cbn [val PropEnter.up]. destruct (IN true (bk_idx b) Hi) as (_ & I1). destruct (I1 W) as (_ & L & U). cbn [val PropEnter.lo PropEnter.up] in L, U. rewrite Rabs_minus_sym. apply (CL (uB s (bk_idx b) - xB s (bk_idx b))); [lra|exact X].
        - assert (RG : in_range n m (bk_isB b) (bk_idx b)) by (rewrite Eb; exact Hi). destruct (IN false (bk_idx b) Hi) as (TU & I1). cbn [PropEnter.ws PropEnter.ty val PropEnter.lo PropEnter.up] in TU, I1. destruct (bk_st b) eqn:Es; try contradiction.
          + destruct SP as (W & X). specialize (X TU). apply IMP, (path_enter e' G n m Hm Am o s' s2 b PP OP'); [rewrite Es; left; reflexivity|exact RG|rewrite Eb; cbn [PropEnter.ws]; rewrite WSC; exact W| |exact EC].
            rewrite Eb, Es. split; [intros _|discriminate]. cbn [val PropEnter.lo]. destruct (I1 W) as (_ & L & U). apply (CL (act n Am s (bk_idx b) - lC s (bk_idx b))); [unfold PropAuxP.act; lra|exact X].
          + destruct SP as (NI & TE & G1). apply (path_leave e' G B n m Hm Am o s' s2 b PP OP' NU Es RG); auto; rewrite Eb; cbn [PropEnter.ws PropEnter.ty posn].
            * rewrite WSC. apply ONI; [apply (o_sC _ _ _ _ _ _ _ _ (op_po _ _ _ _ _ _ _ _ OP)); exact Hi|exact NI].
            * rewrite TYC. exact TE.
            * exact (GO _ _ G1).
          + destruct SP as (W & X). specialize (X TU). apply IMP, (path_enter e' G n m Hm Am o s' s2 b PP OP'); [rewrite Es; right; reflexivity|exact RG|rewrite Eb; cbn [PropEnter.ws]; rewrite WSC; exact W| |exact EC].
            rewrite Eb, Es. split; [discriminate|intros _]. cbn [val PropEnter.up]. destruct (I1 W) as (_ & L & U). rewrite Rabs_minus_sym. apply (CL (uC s (bk_idx b) - act n Am s (bk_idx b))); [unfold PropAuxP.act; lra|exact X]. }
      set (s3 := up_b (N := N) (fun b => set_q_wsc (N := N) (q_wsc b + 1) b) s2).
      assert (OP3 : on_path e' (G + - o_epsNum o * B) n m Hm Am o s3).
      { destruct OP2 as [(l0 & l1 & k0 & k1 & I & HD & CW & RX) [[] Bx Cx Ax sB sC L X] GP FL2 IN2 OD2 PH2 EO2]. constructor; [|constructor; [constructor; assumption|assumption..]|exact GP|exact FL2|exact IN2|exact OD2|exact PH2|exact EO2].
        exists l0, l1, k0, k1. split; [|split; [exact HD|split; [exact CW|exact RX]]]. destruct I as [W F Y A T]. constructor; [destruct W; constructor; assumption|destruct F; constructor; assumption|exact Y|exact A|exact T]. }
      rewrite after_plain by (rewrite (op_o _ _ _ _ _ _ _ _ OP3); exact PP). cbn [bind]. match goal with |- context [negb ?q] => change (negb q) with false end. cbn [pc].
      split; [apply path_relabel; exact OP3|].
      pose proof (o_sz _ _ _ _ _ _ _ _ (op_po _ _ _ _ _ _ _ _ OP3)) as Z3. pose proof (o_sz _ _ _ _ _ _ _ _ (op_po _ _ _ _ _ _ _ _ OP')) as Z2.
      unfold PropStepP.fits in FT' |- *. rewrite (sz_V _ _ _ _ _ _ Z2), (sz_C _ _ _ _ _ _ Z2) in FT'. change (pV (up_b (N := N) (set_q_status (N := N) QPS_HOMOTOPYQPSOLVED) s3)) with (pV s3). change (pC (up_b (N := N) (set_q_status (N := N) QPS_HOMOTOPYQPSOLVED) s3)) with (pC s3).
      rewrite (sz_V _ _ _ _ _ _ Z3), (sz_C _ _ _ _ _ _ Z3). exact FT'. }
  unfold p_solveIter, cpuExceeded. destruct (Z.leb_spec (iter - performed) 0).
  - exact (REST (up_b (N := N) (set_q_status (N := N) QPS_PERFORMINGHOMOTOPY) (set_p_b (N := N) (p_b s) s)) (path_status _ _ _ _ _ _ _ _ _ OP) FT eq_refl).
  - destruct (cpu (q_clk (p_b s))); [cbn [pc]; discriminate|]. exact (REST (labelled eps zero infty (q_clk (p_b s) + 1) QPS_PERFORMINGHOMOTOPY s) (path_labelled _ _ _ _ _ _ _ _ _ _ OP) FT eq_refl).
Qed.

(** ** The theorem *)
Lemma path_meets e G n m Hm Am o (s : qp N) (r : request) : on_path e G n m Hm Am o s ->
  near_data eps zero infty (o_terminationTolerance o) n m (r_g r) (Some (r_lb r)) (Some (r_ub r)) (Some (r_lbA r)) (Some (r_ubA r)) s -> meets e (o_terminationTolerance o) G n m Hm Am r s.
Proof using.
  intros [IO PO GP FL IN OD PH EO] (D1 & D2 & D3 & D4 & D5). cbn [near_opt] in D2, D3, D4, D5. split.
  - intros i Hi. specialize (D1 i Hi). specialize (GP i Hi). unfold near in D1.
    match goal with |- Rabs ?u <= _ => replace u with (gap n m Hm Am s i + (zn 0 (r_g r) i - zn 0 (q_g (p_b s)) i)) by (unfold PropStepQ.gap; ring) end.
    eapply Rle_trans; [apply Rabs_triang|]. lra.
  - intros b i Hi v. set (tol := o_terminationTolerance o) in *.
    assert (NL : near tol (rlo r b i) (lo s b i)) by (unfold in_range in Hi; destruct b; [apply D2|apply D4]; exact Hi). assert (NU : near tol (rup r b i) (up s b i)) by (unfold in_range in Hi; destruct b; [apply D3|apply D5]; exact Hi).
    assert (LIM : (ws s b i = ST_LOWER -> Rabs (v - lo s b i) <= e) /\ (ws s b i = ST_UPPER -> Rabs (v - up s b i) <= e) /\ (ws s b i = ST_INACTIVE -> yB s (posn n b i) = 0)).
    { destruct (o_lim _ _ _ _ _ _ _ _ PO) as (LB & LC). unfold in_range in Hi. destruct b; [exact (LB i Hi)|exact (LC i Hi)]. }
    assert (SE : settled (ws s b i)) by (unfold in_range in Hi; destruct b; [exact (o_sB _ _ _ _ _ _ _ _ PO i Hi)|exact (o_sC _ _ _ _ _ _ _ _ PO i Hi)]).
    specialize (OD b i Hi). destruct (IN b i Hi) as (_ & I). fold v in I. destruct LIM as (L1 & L2 & L3).
    assert (BOTH : lo s b i - e <= v <= up s b i + e).
    { destruct SE as [W|[W|W]]; [apply I, W|specialize (L1 W); apply Rabs_le_both in L1; lra|specialize (L2 W); apply Rabs_le_both in L2; lra]. }
    unfold near in NL, NU. split; [|split].
    + unfold above. apply Rabs_le_both in NL. lra.
    + unfold below. apply Rabs_le_both in NU. lra.
    + destruct SE as [W|[W|W]]; [left; exact (L3 W)|right; left|right; right]; eapply at_arith; eauto; lra.
Qed.

Definition consistent (n m : Z) (r : request) : Prop := forall b i, in_range n m b i -> rlo r b i <= rup r b i.
Lemma loop_from del a B n m Am Hm (s : qp N) (r : request) nWSR k (s' : qp N) :
  (0 < n)%Z -> standing eps zero infty del a n m Hm Am s -> 0 <= a -> (forall i, (0 <= i < m)%Z -> tyC s i <> ST_UNBOUNDED) -> ordered n m s -> plainH (p_b s) = true -> plain_path (p_opts s) ->
  (forall b i j, in_range n m b i -> (0 <= j < n)%Z -> Rabs (row Am b i j) <= B) ->
  proper eps zero infty n m (p_opts s) r -> consistent n m r ->
  p_solveQP (N := N) junk cpu (r_g r) (Some (r_lb r)) (Some (r_ub r)) (Some (r_lbA r)) (Some (r_ubA r)) nWSR 0 s = Ok (SUCCESSFUL_RETURN, k, s') ->
  let o := p_opts s in
  (0 <= k)%Z /\ q_status (p_b s') = QPS_SOLVED /\ p_opts s' = o /\ in_order n m Am Hm s' /\
  meets (Rmax del a + IZR (k + 1) * (eps + o_epsDen o)) (o_terminationTolerance o) (IZR k * (- o_epsNum o * B)) n m Hm Am r s'.
Proof using zero_0 eps_pos J.
  intros Hn SO A0 TU OD PH PP BD PR CO E o. pose proof SO as [IO SD FA FI TY]. unfold p_solveQP in E.
  pose proof (e_sz _ _ _ _ _ _ _ _ _ SD) as SZ. destruct (e_B _ _ _ _ _ _ _ _ _ SD) as (l0 & l1 & WB). pose proof PP as (_ & _ & _ & ED & EN & TT).
  set (s2 := up_b (N := N) (set_q_status (N := N) QPS_PERFORMINGHOMOTOPY) s) in E.
  destruct (hot_prepared eps zero infty junk n m s2 l0 l1 r Hn ltac:(destruct SZ; constructor; assumption) WB PR TT FI) as (bd & E1 & SW & NL & NU & TB).
  set (s3 := set_p_b (N := N) _ s2) in E1. set (s4 := up_b (N := N) (fun b => set_q_unbounded (N := N) false (set_q_infeasible (N := N) false b)) s3).
  assert (SO2 : standing eps zero infty del a n m Hm Am s4) by (apply (standing_typed eps zero infty del a n m Hm Am s s4 bd SO SW NL NU TB eq_refl)).
  assert (EV : pV s4 = n) by (change (st_n bd = n); rewrite (proj1 SW); apply SZ). assert (EC : pC s4 = m) by apply SZ.
  set (e := Rmax del a). assert (Ee : 0 <= e) by (unfold e; eapply Rle_trans; [exact A0|apply Rmax_r]).
  assert (OP : on_path e 0 n m Hm Am o s4).
  { destruct SO2 as [IO4 SD4 ((F1 & F2 & F3 & F4) & FB & FC) _ TY4]. apply steady_poised in SD4 as (PO4 & G4). constructor.
    - exact IO4.
    - eapply poised_mono; [apply Rmax_l|exact PO4].
    - intros i Hi. rewrite (G4 i Hi), Rabs_R0. apply Rle_refl.
    - split; split; assumption.
    - pose proof (Rmax_r del a) as Ra. fold e in Ra. intros b i Hi. unfold in_range in Hi. destruct b; cbn [PropEnter.ty PropEnter.ws PropEnter.lo PropEnter.up val].
      + split; [change (zt (st_type bd) i <> ST_UNBOUNDED); rewrite TB by exact Hi; discriminate|]. intros W. specialize (FB i Hi). rewrite W in FB. destruct FB as (T & L). split; [exact T|lra].
      + split; [exact (TU i Hi)|]. intros W. specialize (FC i Hi). rewrite W in FC. destruct FC as (T & _ & L). split; [exact T|]. unfold PropAuxP.act in L. lra.
    - exact OD.
    - exact PH.
    - reflexivity. }
  assert (B0 : 0 <= B) by (eapply Rle_trans; [apply (Rabs_pos (row Am true 0 0))|apply BD; [unfold in_range; lia|lia]]).
  assert (AK : asks n m r) by (split; [apply PR|exact CO]).
  set (st0 := (s4, mkS (N := N) (junk n) (junk m) (junk m) (junk n) (junk n), mkP (N := N) (junk n) (junk n) (junk m) (junk n))).
  assert (X : forb_up 0 nWSR (p_solveIter (N := N) junk cpu (r_g r) (Some (r_lb r)) (Some (r_ub r)) (Some (r_lbA r)) (Some (r_ubA r)) nWSR 0) st0 = Ok (Brk (SUCCESSFUL_RETURN, k, s'))).
  { unfold st0. destruct (q_status (p_b s)); try discriminate E.
    all: rewrite E1 in E; cbn [bind] in E; match type of E with context [negb ?q] => change (negb q) with false in E end; cbv iota beta zeta in E; fold s4 in E; rewrite EV, EC in E.
    all: match goal with |- ?Y = _ => destruct Y as [[((u, v), w)|(ee, w)]| |]; cbn [bind] in E; try discriminate E; injection E as -> ->; reflexivity end. }
  assert (FT : fits s4 (mkS (N := N) (junk n) (junk m) (junk m) (junk n) (junk n)) (mkP (N := N) (junk n) (junk n) (junk m) (junk n))).
  { destruct SZ as [Z1 Z2 _ _ _ _ _ _ _ _ _ _ _ _]. unfold PropStepP.fits. rewrite EV, EC. cbn [sh_g sh_lbA sh_ubA sh_lb sh_ub sp_xFX sp_xFR sp_yAC sp_yFX]. assert (Jn := J n Z1). assert (Jm := J m Z2). auto 12. }
  set (ek := fun j : Z => e + IZR j * (eps + o_epsDen o)). set (gk := fun j : Z => IZR j * (- o_epsNum o * B)).
  pose proof (pc_forb_up (fun j '(s, d, p) => on_path (ek j) (gk j) n m Hm Am o s /\ fits s d p)
    (fun '(rv, it, s') => rv = SUCCESSFUL_RETURN -> (0 <= it)%Z /\ q_status (p_b s') = QPS_SOLVED /\ on_path (ek (it + 1)%Z) (gk it) n m Hm Am o s' /\
        near_data eps zero infty (o_terminationTolerance o) n m (r_g r) (Some (r_lb r)) (Some (r_ub r)) (Some (r_lbA r)) (Some (r_ubA r)) s')
    0 nWSR (p_solveIter (N := N) junk cpu (r_g r) (Some (r_lb r)) (Some (r_ub r)) (Some (r_lbA r)) (Some (r_ubA r)) nWSR 0) st0) as LP.
  rewrite X in LP. cbn [pc] in LP. destruct LP as (K0 & Q & OP' & ND); [| |reflexivity|].
  - unfold st0, ek, gk. rewrite !Rmult_0_l, Rplus_0_r. split; [exact OP|exact FT].
  - intros j ((sj & dj) & pj) Hj (OPj & FTj).
    assert (Ej : 0 <= ek j) by (unfold ek; assert (0 <= IZR j * (eps + o_epsDen o)) by (apply Rmult_le_pos; [apply IZR_le; lia|unfold o; lra]); lra).
    assert (S1 : ek (j + 1)%Z = ek j + eps + o_epsDen o) by (unfold ek; rewrite plus_IZR; ring). assert (S2 : gk (j + 1)%Z = gk j + - o_epsNum o * B) by (unfold gk; rewrite plus_IZR; ring).
    eapply pc_mono; [exact (path_iter (ek j) (gk j) B n m Am Hm o sj r nWSR 0 j dj pj Ej B0 PP BD OPj AK FTj)|].
    intros [((s5 & d5) & p5)|((rv & it) & s5)]; cbv beta iota.
    + rewrite S1, S2. auto.
    + intros H5 Hr. destruct (H5 Hr) as (-> & Q5 & OP5 & ND5). split; [lia|]. split; [exact Q5|]. rewrite S1. auto.
  - split; [exact K0|]. split; [exact Q|]. split; [apply OP'|]. split; [apply OP'|]. apply (path_meets _ _ n m Hm Am o s' r OP' ND).
Qed.
Theorem C73_loop del a B n m Am Hm (s0 s1 s : qp N) os (r : request) nWSR k (s' : qp N) :
  ready eps zero infty n m Am Hm s0 -> setupTQfactorisation (N := N) s0 = Ok (SUCCESSFUL_RETURN, s1) -> exec eps zero infty junk (sound eps zero infty Hm) Am false s1 os true s ->
  (0 < n)%Z -> steady del n m Hm Am s -> fair eps zero infty a n m Am s -> 0 <= a ->
  finite_bounds eps zero infty n s -> no_eq_bounds eps zero infty n s -> (forall i, (0 <= i < m)%Z -> tyC s i <> ST_UNBOUNDED) -> ordered n m s -> plainH (p_b s) = true -> plain_path (p_opts s) ->
  (forall b i j, in_range n m b i -> (0 <= j < n)%Z -> Rabs (row Am b i j) <= B) ->
  proper eps zero infty n m (p_opts s) r -> consistent n m r ->
  p_solveQP (N := N) junk cpu (r_g r) (Some (r_lb r)) (Some (r_ub r)) (Some (r_lbA r)) (Some (r_ubA r)) nWSR 0 s = Ok (SUCCESSFUL_RETURN, k, s') ->
  let o := p_opts s in
  (0 <= k)%Z /\ q_status (p_b s') = QPS_SOLVED /\ p_opts s' = o /\ in_order n m Am Hm s' /\
  meets (Rmax del a + IZR (k + 1) * (eps + o_epsDen o)) (o_terminationTolerance o) (IZR k * (- o_epsNum o * B)) n m Hm Am r s'.
Proof using zero_0 eps_pos J.
  intros RD E0 EX Hn SD FA A0 FI TY TU OD PH PP BD PR CO E. pose proof (exec_in_order eps zero infty zero_0 eps_pos junk J n m Am Hm s0 s1 os s RD E0 EX) as IO.
  exact (loop_from del a B n m Am Hm s r nWSR k s' Hn ltac:(constructor; assumption) A0 TU OD PH PP BD PR CO E).
Qed.

(** The same for the public function, without far bounds and regularisation, when nothing is guessed.
    haveCholesky is set once the factorisation has been computed. *)
Definition factorised (s : qp N) : qp N := up_b (N := N) (set_q_haveChol (N := N) true) s.
Lemma standing_flags del a n m Hm Am (s : qp N) c : standing eps zero infty del a n m Hm Am s ->
  standing eps zero infty del a n m Hm Am (up_b (N := N) (fun b => set_q_count (N := N) c b) (factorised s)).
Proof using.
  intros [(l0 & l1 & k0 & k1 & I & HD & CW & RX) SD FA FI TY]. constructor; try assumption.
  - exists l0, l1, k0, k1. split; [|split; [exact HD|split; [exact CW|exact RX]]].
    destruct I as [W F Y A T]. constructor; [destruct W; constructor; assumption|destruct F; constructor; assumption|exact Y|exact A|exact T].
  - destruct SD as [[] B C A sB sC G L X]. constructor; auto. constructor; auto.
Qed.
Lemma uncrossed k (l u : arr) : (0 <= k)%Z -> (k <= zlen l)%Z -> (k <= zlen u)%Z -> (forall i, (0 <= i < k)%Z -> zn 0 l i <= zn 0 u i) ->
  forb_up 0 k (fun i (_ : unit) => x <- rd l i ;; y <- rd u i ;; if nltb (n := N) (nadd (n := N) y (nEPS (n := N))) x then Ok (Brk Datatypes.tt) else Ok (Next Datatypes.tt)) Datatypes.tt = Ok (Next Datatypes.tt).
Proof using eps_pos.
  intros Hk L1 L2 O. match goal with |- ?X = _ => assert (P : wp X (fun c => match c with Next _ => True | Brk _ => False end)) end.
  { apply wp_forb_up with (I := fun _ _ => True) (J := fun _ => False); auto. intros i x Hi _. apply wp_bind, (wp_rd 0); [lia|]. apply wp_bind, (wp_rd 0); [lia|].
    specialize (O i Hi). change (nltb (n := N) (nadd (n := N) (zn 0 u i) (nEPS (n := N))) (zn 0 l i)) with (Rltb (zn 0 u i + eps) (zn 0 l i)). rewrite Rltb_false by lra. exact Logic.I. }
  destruct (wp_inv _ _ P) as ([[]|[]] & E & W); [exact E|contradiction].
Qed.
Lemma requested_consistent n m (s : qp N) (r : request) : pV s = n -> pC s = m -> (0 <= n)%Z -> (0 <= m)%Z -> proper eps zero infty n m (p_opts s) r -> consistent n m r ->
  p_areBoundsConsistent (N := N) (Some (r_lb r)) (Some (r_ub r)) (Some (r_lbA r)) (Some (r_ubA r)) s = Ok SUCCESSFUL_RETURN.
Proof using eps_pos.
  intros EV EC Hn Hm ((_ & Ll & Lu & LlA & LuA) & _) CO. unfold p_areBoundsConsistent, areBoundsConsistent. change (nV (p_b s)) with (pV s). rewrite EV, EC. rcar.
  rewrite (uncrossed n (r_lb r) (r_ub r) Hn Ll Lu (fun i Hi => CO true i Hi)). cbn [bind]. change (SUCCESSFUL_RETURN =r? RET_QP_INFEASIBLE) with false. cbv iota.
  rewrite (uncrossed m (r_lbA r) (r_ubA r) Hm LlA LuA (fun i Hi => CO false i Hi)). reflexivity.
Qed.
Theorem C73_hotstart del a B n m Am Hm (s0 s1 s : qp N) os (r : request) fuel nWSR k (s' : qp N) :
  ready eps zero infty n m Am Hm s0 -> setupTQfactorisation (N := N) s0 = Ok (SUCCESSFUL_RETURN, s1) -> exec eps zero infty junk (sound eps zero infty Hm) Am false s1 os true s ->
  (0 < n)%Z -> steady del n m Hm Am s -> fair eps zero infty a n m Am s -> 0 <= a ->
  finite_bounds eps zero infty n s -> no_eq_bounds eps zero infty n s -> (forall i, (0 <= i < m)%Z -> tyC s i <> ST_UNBOUNDED) -> ordered n m s -> plainH (p_b s) = true -> plain_path (p_opts s) ->
  (forall b i j, in_range n m b i -> (0 <= j < n)%Z -> Rabs (row Am b i j) <= B) ->
  proper eps zero infty n m (p_opts s) r -> consistent n m r -> o_enableFarBounds (p_opts s) = false -> usingReg (p_b s) = false ->
  p_hotstart (N := N) junk cpu fuel (r_g r) (Some (r_lb r)) (Some (r_ub r)) (Some (r_lbA r)) (Some (r_ubA r)) nWSR None None (factorised s) = Ok (SUCCESSFUL_RETURN, k, s') ->
  let o := p_opts s in
  (0 <= k)%Z /\ q_status (p_b s') = QPS_SOLVED /\ p_opts s' = o /\ in_order n m Am Hm s' /\
  meets (Rmax del a + IZR (k + 1) * (eps + o_epsDen o)) (o_terminationTolerance o) (IZR k * (- o_epsNum o * B)) n m Hm Am r s'.
Proof using zero_0 eps_pos J.
  intros RD E0 EX Hn SD FA A0 FI TY TU OD PH PP BD PR CO FB UR E o. pose proof (exec_in_order eps zero infty zero_0 eps_pos junk J n m Am Hm s0 s1 os s RD E0 EX) as IO.
  pose proof (e_sz _ _ _ _ _ _ _ _ _ SD) as SZ. assert (EV : pV (factorised s) = n) by apply SZ. assert (EC : pC (factorised s) = m) by apply SZ. assert (Hm0 : (0 <= m)%Z) by apply SZ.
  assert (SO : standing eps zero infty del a n m Hm Am s) by (constructor; assumption). unfold p_hotstart in E. rewrite EV in E. destruct (Z.eqb_spec n 0); [lia|]. cbn [bind] in E.
  change (negb (SUCCESSFUL_RETURN =r? SUCCESSFUL_RETURN)) with false in E. cbv iota beta in E.
  rewrite (requested_consistent n m (factorised s) r EV EC ltac:(lia) Hm0 PR CO) in E. cbn [bind] in E. change (negb (SUCCESSFUL_RETURN =r? SUCCESSFUL_RETURN)) with false in E. cbv iota beta zeta in E.
  match type of E with context [q_haveChol (p_b ?X)] => set (s2 := X) in E end. change (q_haveChol (p_b s2)) with true in E. cbv iota in E. cbn [bind] in E.
  change (negb (SUCCESSFUL_RETURN =r? SUCCESSFUL_RETURN)) with false in E. cbv iota beta in E. change (p_opts s2) with (p_opts s) in E. rewrite FB in E. cbn [negb] in E.
  unfold p_solveRegularisedQP in E. change (usingReg (p_b s2)) with (usingReg (p_b s)) in E. rewrite UR in E. cbn [negb] in E.
  exact (loop_from del a B n m Am Hm s2 r nWSR k s' Hn (standing_flags del a n m Hm Am s _ SO) A0 TU OD PH PP BD PR CO E).
Qed.

(** ** What it is worth *)
(** The signs of the multipliers are not guaranteed (C71), but a caller can look at them.  If they fit
    the limits that are met, the point is nearly optimal for the requested problem. *)
Definition requested (n m : Z) (Hm Am : Z -> Z -> R) (r : request) : Kkt.qp :=
  Kkt.mkQp n m Hm (fun i => zn 0 (r_g r) i) Am (fun i => Some (rlo r true i)) (fun i => Some (rup r true i)) (fun i => Some (rlo r false i)) (fun i => Some (rup r false i)).
Definition signs_fit (e tol : R) (n m : Z) (Am : Z -> Z -> R) (r : request) (s : qp N) : Prop := forall b i, in_range n m b i ->
  let y := yB s (posn n b i) in let v := val n Am (xB s) b i in (0 < y -> at_limit e tol (rlo r b i) v) /\ (y < 0 -> at_limit e tol (rup r b i) v).
Definition bounded_by (M : R) (n m : Z) (r : request) : Prop :=
  1 <= M /\ (forall i, (0 <= i < n)%Z -> Rabs (zn 0 (r_g r) i) <= M) /\ forall b i, in_range n m b i -> Rabs (rlo r b i) <= M /\ Rabs (rup r b i) <= M.
Lemma mult_gain Y E y l u v w : 0 <= E -> (0 < y -> Rabs (v - l) <= E) -> (y < 0 -> Rabs (v - u) <= E) -> l <= w <= u -> Rabs y <= Y -> - (Y * E) - 0 * Rabs (w - v) <= y * (w - v).
Proof using.
  intros E0 P1 P2 W B. apply Rabs_le_both in B. rewrite Rmult_0_l, Rminus_0_r. assert (0 <= Y) by lra. destruct (Rtotal_order y 0) as [L|[->|L]].
  - specialize (P2 L). apply Rabs_le_both in P2. assert (- y * E <= Y * E) by (apply Rmult_le_compat_r; lra). assert (- y * (w - v) <= - y * E) by (apply Rmult_le_compat_l; lra). lra.
  - assert (0 <= Y * E) by (apply Rmult_le_pos; lra). lra.
  - specialize (P1 L). apply Rabs_le_both in P1. assert (y * E <= Y * E) by (apply Rmult_le_compat_r; lra). assert (y * (v - w) <= y * E) by (apply Rmult_le_compat_l; lra). lra.
Qed.
Theorem C73_value e tol G Y M n m Hm Am (r : request) (s : qp N) (z : Z -> R) : (0 <= n)%Z -> (0 <= m)%Z -> 0 <= e -> 0 <= tol ->
  let q := requested n m Hm Am r in Kkt.symmetric q -> Kkt.psd q -> meets e tol G n m Hm Am r s -> signs_fit e tol n m Am r s -> bounded_by M n m r ->
  (forall b i, in_range n m b i -> Rabs (yB s (posn n b i)) <= Y) -> Kkt.feasible q z ->
  Kkt.objective q (xB s) <= Kkt.objective q z + (G + tol * M) * rsum 0 n (fun i => Rabs (z i - xB s i)) + IZR (n + m) * (Y * (e + tol * M)).
Proof using.
  intros Hn Hm0 E0 T0 q SY PS (ST & _) SF (M1 & MG & ML) YB (FB & FC).
  assert (MX : forall v, Rabs v <= M -> tol * Rmax 1 (Rabs v) <= tol * M) by (intros v Hv; apply Rmult_le_compat_l; [exact T0|apply Rmax_lub; assumption]).
  assert (EP : 0 <= e + tol * M) by (assert (0 <= tol * M) by (apply Rmult_le_pos; lra); lra).
  assert (GA : forall b i w, in_range n m b i -> rlo r b i <= w <= rup r b i -> - (Y * (e + tol * M)) - 0 * Rabs (w - val n Am (xB s) b i) <= yB s (posn n b i) * (w - val n Am (xB s) b i)).
  { intros b i w Hi W. destruct (SF b i Hi) as (P1 & P2). destruct (ML b i Hi) as (L1 & L2). apply (mult_gain Y _ _ (rlo r b i) (rup r b i)); auto.
    - intros H. specialize (P1 H). unfold at_limit in P1. specialize (MX _ L1). lra.
    - intros H. specialize (P2 H). unfold at_limit in P2. specialize (MX _ L2). lra. }
  pose proof (Kkt.approx_optimal q (xB s) (yB s) (fun k => yB s (n + k)%Z) z (G + tol * M) (Y * (e + tol * M)) 0 SY PS) as AO.
  cbn [Kkt.q_nV Kkt.q_nC q requested] in AO. rewrite Rplus_0_r, Rmult_0_l, Rminus_0_r in AO. 
  match type of AO with ?A1 -> ?A2 -> ?A3 -> _ => assert (H1 : A1); [|assert (H2 : A2); [|assert (H3 : A3)]] end.
  - intros i Hi. specialize (ST i Hi). specialize (MX _ (MG i Hi)). unfold Kkt.stationarity, Kkt.Hx. cbn [Kkt.q_g Kkt.q_H Kkt.q_A Kkt.q_nV Kkt.q_nC q requested]. unfold matvec in ST.
    match type of ST with Rabs ?u <= _ => match goal with |- Rabs ?v <= _ => replace v with u by ring end end. lra.
  - intros i Hi. apply (GA true i (z i) Hi). destruct (FB i Hi) as (F1 & F2). split; [apply F1|apply F2]; reflexivity.
  - intros k Hk. apply (GA false k (Kkt.Ax q z k) Hk). destruct (FC k Hk) as (F1 & F2). split; [apply F1|apply F2]; reflexivity.
  - specialize (AO H1 H2 H3 Hn Hm0). lra.
Qed.
End Loop.

(** ** Examples *)
Definition lp_opts {N : Num} : options N := set_o_enableFlippingBounds (N := N) false (set_o_enableNZCTests (N := N) false (set_o_enableRamping (N := N) false (set_o_enableDropInfeasibles (N := N) false
  (set_o_enableDriftCorrection (N := N) 0 (set_o_enableCholeskyRefactorisation (N := N) 0 (set_o_epsLITests (N := N) n0 (set_o_enableFarBounds (N := N) false optDefault))))))).
(** the hypotheses of [C73_loop] and [C73_hotstart] are met *)
Example C73_ex : exists s0 s1 s : qp tqN, ready tq_eps 0 tq_inf 2 1 tq_Am tq_Hm s0 /\ setupTQfactorisation (N := tqN) s0 = Ok (SUCCESSFUL_RETURN, s1) /\
  exec tq_eps 0 tq_inf tq_junk (sound tq_eps 0 tq_inf tq_Hm) tq_Am false s1 [OChol] true s /\ steady tq_eps 0 tq_inf 0 2 1 tq_Hm tq_Am s /\ fair tq_eps 0 tq_inf 0 2 1 tq_Am s /\
  finite_bounds tq_eps 0 tq_inf 2 s /\ no_eq_bounds tq_eps 0 tq_inf 2 s /\ (forall i, (0 <= i < 1)%Z -> tyC tq_eps 0 tq_inf s i <> ST_UNBOUNDED) /\ ordered tq_eps 0 tq_inf 2 1 s /\ plainH (p_b s) = true /\
  plain_path tq_eps 0 tq_inf (p_opts s) /\ (forall b i j, in_range 2 1 b i -> (0 <= j < 2)%Z -> Rabs (row tq_Am b i j) <= 4) /\
  proper tq_eps 0 tq_inf 2 1 (p_opts s) (ch_r (-10)) /\ consistent 2 1 (ch_r (-10)) /\ o_enableFarBounds (p_opts s) = false /\ usingReg (p_b s) = false.
Proof.
  destruct (it_state lp_opts) as (s0 & s1 & s & RD & E0 & EX & SD & FA & (EV & EC) & (El & Eu & ElA & EuA) & ET & EK & PH & UR & EO).
  exists s0, s1, s. do 5 (split; [assumption|]). assert (C2 : forall i, (0 <= i < 2)%Z -> i = 0%Z \/ i = 1%Z) by lia.
  assert (TI : 2 < tq_inf) by (unfold tq_inf; lra). assert (L3 : Rlit 1 3 = 1000) by reflexivity. assert (L6 : Rlit 5 6 = 5000000) by reflexivity. pose proof tq_eps_pos as EP.
  split; [|split; [|split; [|split; [|split; [exact PH|split; [|split; [|split; [|split; [|split; [now rewrite EO|exact UR]]]]]]]]]].
  - intros i Hi. unfold lB, uB. rewrite El, Eu. destruct (C2 i Hi) as [-> | ->]; change (- tq_inf < -1 /\ 1 < tq_inf); lra.
  - intros i Hi. unfold tyB. rewrite ET. destruct (C2 i Hi) as [-> | ->]; discriminate.
  - intros i Hi. unfold tyC. rewrite EK. assert (i = 0%Z) as -> by lia. discriminate.
  - intros [|] i Hi; unfold in_range in Hi; unfold lo, up, lB, uB, lC, uC.
    + rewrite El, Eu. destruct (C2 i Hi) as [-> | ->]; change (-1 <= 1); lra.
    + rewrite ElA, EuA. assert (i = 0%Z) as -> by lia. change (-1 <= 1). lra.
  - rewrite EO. split; [repeat split; cbn; lia|]. split; [reflexivity|]. split; [vm_compute; discriminate|].
    change (0 < Rlit 1 3 * tq_eps /\ - Rlit 1 3 * tq_eps <= 0 /\ 0 <= Rlit 5 6 * tq_eps). rewrite L3, L6. lra.
  - intros [|] i j Hi Hj; unfold in_range in Hi; unfold row, delta.
    + destruct (Z.eqb i j || Z.eqb j i)%bool eqn:E; destruct (Z.eqb_spec i j); destruct (Z.eqb_spec j i); try lia; apply Rabs_le; lra.
    + assert (i = 0%Z) as -> by lia. destruct (C2 j Hj) as [-> | ->]; apply Rabs_le; [change (-4 <= 3 <= 4)|change (-4 <= 4 <= 4)]; lra.
  - split; [repeat split; cbn; unfold zlen; cbn; lia|]. intros i Hi. cbv zeta. rewrite EO.
    assert (V : zn 0 (r_lb (ch_r (-10))) i = -1 /\ zn 0 (r_ub (ch_r (-10))) i = 1) by (destruct (C2 i Hi) as [-> | ->]; split; reflexivity). destruct V as (-> & ->).
    change (o_terminationTolerance (lp_opts (N := tqN))) with (Rlit 5 6 * tq_eps). change (o_boundTolerance (lp_opts (N := tqN))) with (Rlit 1 6 * tq_eps).
    assert (L1 : Rlit 1 6 = 1000000) by reflexivity. rewrite L6, L1.
    rewrite (Rabs_left (-1)), (Rabs_right 1) by lra. replace (- -1) with 1 by ring. rewrite Rmax_left by lra. unfold tq_eps in *. lra.
  - intros [|] i Hi; unfold in_range in Hi; unfold rlo, rup; [destruct (C2 i Hi) as [-> | ->]|assert (i = 0%Z) as -> by lia]; change (-1 <= 1); lra.
Qed.
(** the hypotheses of [C73_value] are met by the solution of the example for the gradient [-10; 0] *)
Example C73_value_ex : exists s : qp tqN, let r := ch_r (-10) in let q := requested 2 1 tq_Hm tq_Am r in
  Kkt.symmetric q /\ Kkt.psd q /\ meets tq_eps 0 tq_inf 0 0 0 2 1 tq_Hm tq_Am r s /\ signs_fit tq_eps 0 tq_inf 0 0 2 1 tq_Am r s /\ bounded_by 10 2 1 r /\
  (forall b i, in_range 2 1 b i -> Rabs (yB tq_eps 0 tq_inf s (posn 2 b i)) <= 17 / 2) /\ Kkt.feasible q (fun _ => 0).
Proof.
  destruct (it_state lp_opts) as (_ & _ & s & _). set (s' := up_b (N := tqN) (fun b => set_q_x (N := tqN) [1; - / 2] (set_q_y (N := tqN) [- (17 / 2); 0; 0] b)) s). exists s'.
  assert (C2 : forall i, (0 <= i < 2)%Z -> i = 0%Z \/ i = 1%Z) by lia.
  assert (CB : forall b i, in_range 2 1 b i -> b = true /\ i = 0%Z \/ b = true /\ i = 1%Z \/ b = false /\ i = 0%Z) by (intros [|] i Hi; unfold in_range in Hi; [destruct (C2 i Hi)|assert (i = 0%Z) by lia]; auto).
  assert (V0 : val 2 tq_Am (xB tq_eps 0 tq_inf s') true 0 = 1) by reflexivity. assert (V1 : val 2 tq_Am (xB tq_eps 0 tq_inf s') true 1 = - / 2) by reflexivity.
  assert (V2 : val 2 tq_Am (xB tq_eps 0 tq_inf s') false 0 = 1) by (unfold val; rewrite it_sum2; change (3 * 1 + 4 * - / 2 = 1); lra).
  assert (Y0 : yB tq_eps 0 tq_inf s' (posn 2 true 0) = - (17 / 2)) by reflexivity. assert (Y1 : yB tq_eps 0 tq_inf s' (posn 2 true 1) = 0) by reflexivity. assert (Y2 : yB tq_eps 0 tq_inf s' (posn 2 false 0) = 0) by reflexivity.
  assert (A1 : Rabs 1 = 1) by (apply Rabs_right; lra). assert (A2 : Rabs (-1) = 1) by (rewrite Rabs_left; lra).
  cbv zeta. split; [|split; [|split; [|split; [|split; [|split]]]]].
  - intros i j Hi Hj. cbn [Kkt.q_nV requested] in Hi, Hj. destruct (C2 i Hi) as [-> | ->]; destruct (C2 j Hj) as [-> | ->]; reflexivity.
  - intros v. unfold Kkt.Hx. cbn [Kkt.q_nV Kkt.q_H requested]. rewrite !it_sum2. change (0 <= v 0%Z * (2 * v 0%Z + 1 * v 1%Z) + v 1%Z * (1 * v 0%Z + 2 * v 1%Z)). pose proof (Rle_0_sqr (v 0%Z + v 1%Z)). pose proof (Rle_0_sqr (v 0%Z)). pose proof (Rle_0_sqr (v 1%Z)). unfold Rsqr in *. lra.
  - split.
    + intros i Hi. unfold matvec. rewrite it_sum2. rewrite rsum_first by lia. rewrite rsum_empty by lia.
      match goal with |- Rabs ?u <= _ => replace u with 0; [rewrite Rabs_R0; lra|] end.
      destruct (C2 i Hi) as [-> | ->]; [change (0 = 2 * 1 + 1 * - / 2 + -10 - - (17 / 2) - (3 * 0 + 0))|change (0 = 1 * 1 + 2 * - / 2 + 0 - 0 - (4 * 0 + 0))]; lra.
    + intros b i Hi. cbv zeta. unfold above, below, at_limit. destruct (CB b i Hi) as [(-> & ->)|[(-> & ->)|(-> & ->)]]; rewrite ?V0, ?V1, ?V2, ?Y0, ?Y1, ?Y2.
      * change (rlo (ch_r (-10)) true 0) with (-1). change (rup (ch_r (-10)) true 0) with 1. split; [lra|]. split; [lra|]. right. right. rewrite Rminus_diag_eq, Rabs_R0 by reflexivity. lra.
      * change (rlo (ch_r (-10)) true 1) with (-1). change (rup (ch_r (-10)) true 1) with 1. split; [lra|]. split; [lra|]. now left.
      * change (rlo (ch_r (-10)) false 0) with (-1). change (rup (ch_r (-10)) false 0) with 1. split; [lra|]. split; [lra|]. now left.
  - intros b i Hi. cbv zeta. unfold at_limit. destruct (CB b i Hi) as [(-> & ->)|[(-> & ->)|(-> & ->)]]; rewrite ?V0, ?V1, ?V2, ?Y0, ?Y1, ?Y2; (split; intros H; try lra).
    change (rup (ch_r (-10)) true 0) with 1. rewrite Rminus_diag_eq, Rabs_R0 by reflexivity. lra.
  - split; [lra|]. split.
    + intros i Hi. destruct (C2 i Hi) as [-> | ->]; [change (Rabs (-10) <= 10); rewrite Rabs_left; lra|change (Rabs 0 <= 10); rewrite Rabs_R0; lra].
    + intros b i Hi. destruct (CB b i Hi) as [(-> & ->)|[(-> & ->)|(-> & ->)]]; change (Rabs (-1) <= 10 /\ Rabs 1 <= 10); rewrite A1, A2; lra.
  - intros b i Hi. destruct (CB b i Hi) as [(-> & ->)|[(-> & ->)|(-> & ->)]]; rewrite ?Y0, ?Y1, ?Y2; [rewrite Rabs_left; lra|rewrite Rabs_R0; lra|rewrite Rabs_R0; lra].
  - split; intros i Hi; cbn [Kkt.q_nV Kkt.q_nC requested] in Hi.
    + split; intros c Ec; injection Ec as <-; destruct (C2 i Hi) as [-> | ->]; [change (-1 <= 0)|change (-1 <= 0)|change (0 <= 1)|change (0 <= 1)]; lra.
    + unfold Kkt.Ax. cbn [Kkt.q_nV Kkt.q_A requested]. rewrite it_sum2. assert (i = 0%Z) as -> by lia. split; intros c Ec; injection Ec as <-; [change (-1 <= 3 * 0 + 4 * 0)|change (3 * 0 + 4 * 0 <= 1)]; lra.
Qed.
(** and hotstart does succeed after working set changes: min 1/2 x^2 + g x with -10 <= x <= 10 and
    -1 <= x <= 5, from g = 0 to g = -20 *)
Definition lp_run (g : Q) :=
  match q_init 1 1 [1]%Q [0]%Q [1]%Q [-10]%Q [10]%Q [-1]%Q [5]%Q 10 lp_opts with
  | Ok (SUCCESSFUL_RETURN, _, s) => match p_hotstart (N := QNum) ce_junk nocpu 20 [g] (Some [-10]%Q) (Some [10]%Q) (Some [-1]%Q) (Some [5]%Q) 10 None None s with
      Ok (r, k, s') => Some (q_haveChol (p_b s), r, k, st_status (p_bounds s'), st_status (p_cons s'), map Qred (q_x (p_b s')), map Qred (q_y (p_b s'))) | _ => None end
  | _ => None
  end.
Example C73_run : lp_run (-20) = Some (true, SUCCESSFUL_RETURN, 1%Z, [ST_INACTIVE], [ST_UPPER], [5]%Q, [0; -15]%Q) /\ lp_run (-3) = Some (true, SUCCESSFUL_RETURN, 0%Z, [ST_INACTIVE], [ST_INACTIVE], [3]%Q, [0; 0]%Q).
Proof. split; vm_compute; reflexivity. Qed.
