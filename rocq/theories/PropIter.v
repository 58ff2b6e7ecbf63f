(** C69: one iteration of the homotopy with constraints, up to the change of the
    working set.  Either no step direction is found for one of the reasons of C67,
    or the iteration ends the homotopy with an approximate solution of the
    requested problem, or something blocks and the iterate stays optimal for the
    intermediate problem.  Exact arithmetic. *)
From Verif Require Import Base Types Num Options Indexlist IndexlistProofs Loops RSum LinSpec SafeLib SubjectTo SubjectToProofs SubjectToProofs2
  Flipper PropFlipper Matrices MatLib MatSafe CsLib PropDense PropSparse PropSparse2 LinAlg PropLinAlg QProblemB QPBSafe QPBSafe2 QPBEx QPBX1 QPBX2 QPBX5 QPBX8 QPBX11 PropHess PropAux PropRatio
  QProblem QProblem2 QProblem3 QProblem4 QProblem5 QPFrame PropNull QProblem6 QPFrame2 PropSQ PropAuxP QPX1 QPX2 QPX4 QPX8 QPX10 QPX14 QPX16 QPX18 QPX19 QPX20 QPX21 QPX13 QPX17 PropTQ PropTQ2 PropStepP PropStepQ.
Local Open Scope R_scope.

Ltac rdx := rewrite (rd_ok 0) by (rcar; rewrite ?zlen_zupd; lia); cbn [bind].
Section Iter.
Variables eps zero infty : R.
Hypothesis zero_0 : zero = 0.
Hypothesis eps_pos : 0 < eps.
Notation N := (RNumT eps zero infty).
Notation arr := (list R).
Variable junk : Z -> arr.
Hypothesis J : junk_ok (N := N) junk.
Variable cpu : Z -> bool.

Notation wsB := (wsB eps zero infty). Notation wsC := (wsC eps zero infty). Notation tyB := (tyB eps zero infty). Notation tyC := (tyC eps zero infty).
Notation xB := (xB eps zero infty). Notation yB := (yB eps zero infty). Notation lB := (lB eps zero infty). Notation uB := (uB eps zero infty). Notation lC := (lC eps zero infty). Notation uC := (uC eps zero infty).
Notation act := (act eps zero infty).
Notation steady := (steady eps zero infty).
Notation sized := (sized eps zero infty).

(** ** The data shift *)
Definition shifts (n m : Z) (gn : arr) (lbn ubn lbAn ubAn : option arr) (s : qp N) (d : pshift (N := N)) : Prop :=
  (forall i, (0 <= i < n)%Z -> zn 0 (sh_g d) i = zn 0 gn i - zn 0 (q_g (p_b s)) i /\ zn 0 (sh_lb d) i = bv lbn (- infty) i - lB s i /\ zn 0 (sh_ub d) i = bv ubn infty i - uB s i) /\
  (forall k, (0 <= k < m)%Z -> zn 0 (sh_lbA d) k = bv lbAn (- infty) k - lC s k /\ zn 0 (sh_ubA d) k = bv ubAn infty k - uC s k).
Definition asked (n m : Z) (gn : arr) (lbn ubn lbAn ubAn : option arr) : Prop :=
  (n <= zlen gn)%Z /\ olen (N := N) n lbn /\ olen (N := N) n ubn /\ olen (N := N) m lbAn /\ olen (N := N) m ubAn.

Lemma flag_loop (st : subjectTo) a0 a1 (dl du : arr) : st_wf st a0 a1 -> (forall i, (0 <= i < st_n st)%Z -> settled (zs (st_status st) i)) -> zlen dl = st_n st -> zlen du = st_n st ->
  wp (forb_up 0 (il_length (st_act st)) (fun i (_ : unit) =>
         ii <- rd (il_number (st_act st)) i ;;
         a <- rd dl ii ;;
         if nltb (n := N) (nEPS (n := N)) (nabs (n := N) a) then Ok (Brk Datatypes.tt) else
         b <- rd du ii ;;
         if nltb (n := N) (nEPS (n := N)) (nabs (n := N) b) then Ok (Brk Datatypes.tt) else Ok (Next Datatypes.tt)) Datatypes.tt)
    (fun c => match c with Brk _ => false | Next _ => true end = true -> forall i, (0 <= i < st_n st)%Z -> zs (st_status st) i <> ST_INACTIVE ->
       Rabs (zn 0 dl i) <= eps /\ Rabs (zn 0 du i) <= eps).
Proof using.
  intros W SE Ll Lu. rewrite (rep_len _ _ (wf_act _ _ _ W)).
  apply wp_forb_up with (I := fun k _ => forall q, (0 <= q < k)%Z -> Rabs (zn 0 dl (zz a1 q)) <= eps /\ Rabs (zn 0 du (zz a1 q)) <= eps) (J := fun _ => True); [apply zlen_nonneg|intros; lia| | |].
  - intros k [] Hk Ik. rewrite (rd_rep _ a1) by (auto; apply (wf_act _ _ _ W)). cbn [bind]. fold (zz a1 k).
    assert (Rk : (0 <= zz a1 k < st_n st)%Z) by (apply (wf_in1 _ _ _ W); apply (zn_In 0%Z); exact Hk).
    rdx. rnum. destruct (Rltb_spec eps (Rabs (zn 0 dl (zz a1 k)))) as [X|X]; [exact I|]. rdx.
    destruct (Rltb_spec eps (Rabs (zn 0 du (zz a1 k)))) as [Y|Y]; [exact I|]. cbn [wp]. intros q Hq. destruct (Z.eq_dec q k) as [->|]; [lra|apply Ik; lia].
  - intros [] Ik _ i Hi A. apply (act_in st a0 a1 i W Hi (SE i Hi)) in A. apply (In_zn 0%Z) in A as (q & Hq & <-). exact (Ik q Hq).
  - intros [] _ X. discriminate X.
Qed.

Lemma dataShift_ok n m (gn : arr) lbn ubn lbAn ubAn (s : qp N) (d : pshift (N := N)) l0 l1 k0 k1 : sized n m s -> st_wf (p_bounds s) l0 l1 -> st_wf (p_cons s) k0 k1 ->
  (forall i, (0 <= i < n)%Z -> settled (wsB s i)) -> (forall k, (0 <= k < m)%Z -> settled (wsC s k)) -> asked n m gn lbn ubn lbAn ubAn ->
  zlen (sh_g d) = n -> zlen (sh_lbA d) = m -> zlen (sh_ubA d) = m -> zlen (sh_lb d) = n -> zlen (sh_ub d) = n ->
  wp (p_determineDataShift (N := N) gn lbn ubn lbAn ubAn s d) (fun '(d', bCz, bBz) =>
    (zlen (sh_g d') = n /\ zlen (sh_lbA d') = m /\ zlen (sh_ubA d') = m /\ zlen (sh_lb d') = n /\ zlen (sh_ub d') = n) /\
    shifts n m gn lbn ubn lbAn ubAn s d' /\ flags_right eps zero infty n m s d' bCz bBz).
Proof using.
  intros SZ WB WC SB SC (Hg & Hl & Hu & HlA & HuA) D1 D2 D3 D4 D5. destruct SZ. unfold p_determineDataShift, determineDataShift. cbv zeta. cbn [dl_g dl_lb dl_ub].
  change (nV (p_b s)) with (pV s). rewrite sz_V, sz_C. rcar.
  apply wp_bind. apply wp_bind. apply (wp_fill (0:R) (fun i => zn 0 gn i - zn 0 (q_g (p_b s)) i)); [rcar; lia| |].
  { intros i a Hi La. rdx. rdx. apply wr_ok. rcar; lia. }
  intros dg Lg Vg _. rcar.
  apply wp_bind. apply (wp_fill (0:R) (fun i => bv lbn (- infty) i - lB s i)); [rcar; lia| |].
  { intros i a Hi La. unfold bv. destruct lbn as [ln|]; unfold olen in Hl; rcar; repeat rdx; apply wr_ok; rcar; lia. }
  intros dlb Ll Vl _. rcar.
  apply wp_bind. apply (wp_fill (0:R) (fun i => bv ubn infty i - uB s i)); [rcar; lia| |].
  { intros i a Hi La. unfold bv. destruct ubn as [un|]; unfold olen in Hu; rcar; repeat rdx; apply wr_ok; rcar; lia. }
  intros dub Lu Vu _. rcar.
  assert (EV : st_n (p_bounds s) = n) by exact sz_V. assert (EC : st_n (p_cons s) = m) by exact sz_C.
  apply wp_bind. eapply wp_mono; [apply (flag_loop (p_bounds s) l0 l1 dlb dub WB); rewrite EV; [exact SB|rcar; lia..]|]. rewrite EV. intros cB FB. cbn [wp].
  apply wp_bind. apply (wp_fill (0:R) (fun i => bv lbAn (- infty) i - lC s i)); [rcar; lia| |].
  { intros i a Hi La. unfold bv. destruct lbAn as [ln|]; unfold olen in HlA; rcar; repeat rdx; apply wr_ok; rcar; lia. }
  intros dlA LlA VlA _. rcar.
  apply wp_bind. apply (wp_fill (0:R) (fun i => bv ubAn infty i - uC s i)); [rcar; lia| |].
  { intros i a Hi La. unfold bv. destruct ubAn as [un|]; unfold olen in HuA; rcar; repeat rdx; apply wr_ok; rcar; lia. }
  intros duA LuA VuA _. rcar.
  apply wp_bind. eapply wp_mono; [apply (flag_loop (p_cons s) k0 k1 dlA duA WC); rewrite EC; [exact SC|rcar; lia..]|]. rewrite EC. intros cC FC. cbn [wp].
  split; [cbn; rcar; repeat split; congruence|]. split; [split; intros i Hi; cbn; auto|]. split; [exact FB|exact FC].
Qed.

(** ** The homotopy length *)
Definition near_data (tol : R) (n m : Z) (gn : arr) (lbn ubn lbAn ubAn : option arr) (s : qp N) : Prop :=
  (forall i, (0 <= i < n)%Z -> near tol (zn 0 gn i) (zn 0 (q_g (p_b s)) i)) /\ near_opt tol n lbn (lB s) /\ near_opt tol n ubn (uB s) /\
  near_opt tol m lbAn (lC s) /\ near_opt tol m ubAn (uC s).
Lemma near_opt_mono l1 l2 n a c : l1 <= l2 -> near_opt l1 n a c -> near_opt l2 n a c.
Proof using. intros L. destruct a; [|auto]. intros X i Hi. apply (near_mono l1); auto. Qed.
Lemma homLen_opt n (new : option arr) (cur : arr) (len : R) : (0 <= n)%Z -> olen (N := N) n new -> (n <= zlen cur)%Z ->
  wp (match new with Some a => homLen1 (N := N) a cur n len | None => Ok len end) (fun len' => len <= len' /\ near_opt len' n new (zn 0 cur)).
Proof using.
  intros Hn Lo Lc. destruct new as [a|]; [|cbn; split; [lra|exact I]]. unfold olen in Lo. apply homLen1_exact; auto; rcar; lia.
Qed.
Lemma homLen_same n (new : option arr) (cur : arr) : (0 <= n)%Z -> olen (N := N) n new -> (n <= zlen cur)%Z ->
  (forall a, new = Some a -> forall i, (0 <= i < n)%Z -> zn 0 cur i = zn 0 a i) ->
  wp (match new with Some a => homLen1 (N := N) a cur n 0 | None => Ok 0 end) (fun l => l = 0).
Proof using.
  intros Hn Lo Lc E. destruct new as [a|]; [|reflexivity]. unfold olen in Lo. specialize (E a eq_refl).
  unfold homLen1. apply wp_for_up with (I := fun k (l : R) => l = 0); [lia|reflexivity| |auto].
  intros k l Hk ->. rdx. rdx. cbn [wp]. rnum. rewrite (E k Hk).
  match goal with |- context [Rabs (?u - ?u) / ?w] => replace (Rabs (u - u) / w) with 0 by (replace (u - u) with 0 by ring; rewrite Rabs_R0; unfold Rdiv; ring) end.
  destruct (Rltb_spec 0 0); [lra|reflexivity].
Qed.
Lemma length_ok n m (gn : arr) lbn ubn lbAn ubAn (s : qp N) : sized n m s -> asked n m gn lbn ubn lbAn ubAn ->
  wp (p_getRelativeHomotopyLength (N := N) gn lbn ubn lbAn ubAn s) (fun len => near_data len n m gn lbn ubn lbAn ubAn s).
Proof using.
  intros SZ (Hg & Hl & Hu & HlA & HuA). destruct SZ. unfold p_getRelativeHomotopyLength, getRelativeHomotopyLength. change (nV (p_b s)) with (pV s). rewrite sz_V, sz_C. rcar.
  apply wp_bind. apply wp_bind. eapply wp_mono; [apply (homLen1_exact eps zero infty n gn (q_g (p_b s))); rcar; lia|]. intros a (_ & Va).
  apply wp_bind. eapply wp_mono; [apply (homLen_opt n lbn (q_lb (p_b s)) a); auto; rcar; lia|]. intros b (Lb & Vb).
  eapply wp_mono; [apply (homLen_opt n ubn (q_ub (p_b s)) b); auto; rcar; lia|]. intros c (Lc & Vc).
  apply wp_bind. eapply wp_mono; [apply (homLen_opt m lbAn (p_lbA s) c); auto; rcar; lia|]. intros d (Ld & Vd).
  eapply wp_mono; [apply (homLen_opt m ubAn (p_ubA s) d); auto; rcar; lia|]. intros e (Le & Ve).
  split; [intros i Hi; apply (near_mono a); [lra|auto]|]. split; [apply (near_opt_mono b); [lra|exact Vb]|]. split; [apply (near_opt_mono c); [lra|exact Vc]|].
  split; [apply (near_opt_mono d); [lra|exact Vd]|exact Ve].
Qed.
Definition same_data (n m : Z) (gn : arr) (lbn ubn lbAn ubAn : option arr) (s : qp N) : Prop :=
  (forall i, (0 <= i < n)%Z -> zn 0 (q_g (p_b s)) i = zn 0 gn i /\ lB s i = bv lbn (- infty) i /\ uB s i = bv ubn infty i) /\
  (forall k, (0 <= k < m)%Z -> lC s k = bv lbAn (- infty) k /\ uC s k = bv ubAn infty k).
Lemma length_0 n m (gn : arr) lbn ubn lbAn ubAn (s : qp N) : sized n m s -> asked n m gn lbn ubn lbAn ubAn -> same_data n m gn lbn ubn lbAn ubAn s ->
  p_getRelativeHomotopyLength (N := N) gn lbn ubn lbAn ubAn s = Ok 0.
Proof using.
  intros SZ (Hg & Hl & Hu & HlA & HuA) (SB & SC). destruct SZ.
  enough (X : wp (p_getRelativeHomotopyLength (N := N) gn lbn ubn lbAn ubAn s) (fun l => l = 0)) by (apply wp_inv in X as (l & -> & ->); reflexivity).
  unfold p_getRelativeHomotopyLength, getRelativeHomotopyLength. change (nV (p_b s)) with (pV s). rewrite sz_V, sz_C. rcar.
  apply wp_bind. apply wp_bind. eapply wp_mono; [apply (homLen_same n (Some gn) (q_g (p_b s))); [auto|unfold olen; rcar; lia|rcar; lia|intros a [= <-] i Hi; apply SB; exact Hi]|]. intros a ->.
  apply wp_bind. eapply wp_mono; [apply (homLen_same n lbn (q_lb (p_b s))); [auto|auto|rcar; lia|intros a -> i Hi; apply (SB i Hi)]|]. intros b ->.
  eapply wp_mono; [apply (homLen_same n ubn (q_ub (p_b s))); [auto|auto|rcar; lia|intros a -> i Hi; apply (SB i Hi)]|]. intros c ->.
  apply wp_bind. eapply wp_mono; [apply (homLen_same m lbAn (p_lbA s)); [auto|auto|rcar; lia|intros a -> i Hi; apply (SC i Hi)]|]. intros e ->.
  apply (homLen_same m ubAn (p_ubA s)); [auto|auto|rcar; lia|intros a -> i Hi; apply (SC i Hi)].
Qed.

(** ** The factors *)
(** everything the step direction relies on, as left by every sequence of working set changes *)
Definition in_order (n m : Z) (Am Hm : Z -> Z -> R) (s : qp N) : Prop := exists l0 l1 k0 k1,
  pinv eps zero infty n m Am s l0 l1 k0 k1 /\ hdata eps zero infty n s Hm /\ cwf eps zero infty n m (scr_of (N := N) s) /\ Rexact eps zero infty n s (zlen l0 - zlen k1) l0 Hm.
Lemma exec_in_order n m Am Hm (s s0 : qp N) os s' : ready eps zero infty n m Am Hm s -> setupTQfactorisation (N := N) s = Ok (SUCCESSFUL_RETURN, s0) ->
  exec eps zero infty junk (sound eps zero infty Hm) Am false s0 os true s' -> in_order n m Am Hm s'.
Proof using zero_0 eps_pos J.
  intros RD E0 X. destruct (ready_good eps zero infty zero_0 n m Am Hm s RD) as (s0' & E & l0 & l1 & k0 & G). rewrite E0 in E. injection E as <-.
  destruct (exec_exact eps zero infty junk zero_0 eps_pos J n m Am Hm _ _ _ _ _ X l0 l1 k0 [] G ltac:(discriminate)) as (l0' & l1' & k0' & k1' & (I & (HD & CW) & _) & RX).
  exists l0', l1', k0', k1'. auto.
Qed.
(** the clock and the status *)
Definition labelled (c : Z) (v : QProblemStatus) (s : qp N) : qp N := up_b (N := N) (set_q_status (N := N) v) (set_p_b (N := N) (set_q_clk (N := N) c (p_b s)) s).
Lemma in_order_labelled n m Am Hm (s : qp N) c v : in_order n m Am Hm s -> in_order n m Am Hm (labelled c v s).
Proof using.
  intros (l0 & l1 & k0 & k1 & I & HD & CW & RX). exists l0, l1, k0, k1. split; [|split; [exact HD|split; [exact CW|exact RX]]].
  destruct I as [W F Y A T]. constructor; [destruct W; constructor; assumption|destruct F; constructor; assumption|exact Y|exact A|exact T].
Qed.
Lemma in_order_status n m Am Hm (s : qp N) v : in_order n m Am Hm s -> in_order n m Am Hm (up_b (N := N) (set_q_status (N := N) v) (set_p_b (N := N) (p_b s) s)).
Proof using.
  intros (l0 & l1 & k0 & k1 & I & HD & CW & RX). exists l0, l1, k0, k1. split; [|split; [exact HD|split; [exact CW|exact RX]]].
  destruct I as [W F Y A T]. constructor; [destruct W; constructor; assumption|destruct F; constructor; assumption|exact Y|exact A|exact T].
Qed.
Lemma steady_labelled del n m Hm Am (s : qp N) c v : steady del n m Hm Am s -> steady del n m Hm Am (labelled c v s).
Proof using. intros [[] B C A sB sC G L X]. constructor; auto. constructor; auto. Qed.
Lemma steady_status del n m Hm Am (s : qp N) v : steady del n m Hm Am s -> steady del n m Hm Am (up_b (N := N) (set_q_status (N := N) v) (set_p_b (N := N) (p_b s) s)).
Proof using. intros [[] B C A sB sC G L X]. constructor; auto. constructor; auto. Qed.
Lemma steady_solved del n m Hm Am (s : qp N) v : steady del n m Hm Am s -> steady del n m Hm Am (up_b (N := N) (set_q_status (N := N) v) s).
Proof using. intros [[] B C A sB sC G L X]. constructor; auto. constructor; auto. Qed.
Lemma steady_scr del n m Hm Am (s : qp N) c : steady del n m Hm Am s -> steady del n m Hm Am (scr_to (N := N) c s).
Proof using. intros [[] B C A sB sC G L X]. constructor; auto. constructor; auto. Qed.
Lemma steady_mono del del' n m Hm Am (s : qp N) : del <= del' -> steady del n m Hm Am s -> steady del' n m Hm Am s.
Proof using.
  intros L [SZ B C A sB sC G (LB & LC) X]. constructor; auto. split; intros i Hi.
  - destruct (LB i Hi) as (P & Q & T). split; [|split]; [intros W; specialize (P W); lra|intros W; specialize (Q W); lra|exact T].
  - destruct (LC i Hi) as (P & Q & T). split; [|split]; [intros W; specialize (P W); lra|intros W; specialize (Q W); lra|exact T].
Qed.

Lemma in_order_relabel n m Am Hm (s : qp N) v : in_order n m Am Hm s -> in_order n m Am Hm (up_b (N := N) (set_q_status (N := N) v) s).
Proof using.
  intros (l0 & l1 & k0 & k1 & I & HD & CW & RX). exists l0, l1, k0, k1. split; [|split; [exact HD|split; [exact CW|exact RX]]].
  destruct I as [W F Y A T]. constructor; [destruct W; constructor; assumption|destruct F; constructor; assumption|exact Y|exact A|exact T].
Qed.
Lemma in_order_scr n m Am Hm (s : qp N) c : in_order n m Am Hm s -> cwf eps zero infty n m c -> in_order n m Am Hm (scr_to (N := N) c s).
Proof using.
  intros (l0 & l1 & k0 & k1 & I & HD & _ & RX) CW. exists l0, l1, k0, k1. split; [|split; [exact HD|split; [destruct CW; constructor; assumption|exact RX]]].
  destruct I as [W F Y A T]. constructor; [destruct W; constructor; assumption|destruct F; constructor; assumption|exact Y|exact A|exact T].
Qed.
(** a step moves data, iterate and activities only *)
Lemma step_shape d p (s : qp N) : pc (p_performStep (N := N) junk d p s) (fun '(b, s') => s' = up_b (N := N) (set_q_tau (N := N) (bk_t b)) s \/ exists x y g lb ub lbA ubA Ax Al Au,
  s' = up_b (N := N) (fun b => set_q_ub (N := N) ub (set_q_lb (N := N) lb (set_q_g (N := N) g (set_q_y (N := N) y (set_q_x (N := N) x b)))))
    (set_p_Ax_u (N := N) Au (set_p_Ax_l (N := N) Al (set_p_Ax (N := N) Ax (set_p_ubA (N := N) ubA (set_p_lbA (N := N) lbA (up_b (N := N) (set_q_tau (N := N) (bk_t b)) s))))))).
Proof using.
  unfold p_performStep. apply pc_any. intros (b, dAx). unfold p_applyStep. cbv zeta. match goal with |- context [if ?c then _ else _] => destruct c end; [|left; reflexivity].
  apply pc_assoc, pc_any. intros x0. apply pc_assoc, pc_any. intros x. apply pc_assoc, pc_any. intros y0. apply pc_assoc, pc_any. intros y. apply pc_assoc, pc_any. intros g.
  apply pc_assoc, pc_any. intros lb. apply pc_assoc, pc_any. intros ub. apply pc_assoc, pc_any. intros lbA. apply pc_assoc, pc_any. intros ubA. apply pc_assoc, pc_any. intros M.
  apply pc_assoc, pc_any. intros Ax0. apply pc_assoc, pc_any. intros (Al0, Au0). apply pc_assoc, pc_any. intros ((Ax, Al), Au). right. exists x, y, g, lb, ub, lbA, ubA, Ax, Al, Au. reflexivity.
Qed.
Lemma step_in_order n m Am Hm d p b (s s' : qp N) : in_order n m Am Hm s -> p_performStep (N := N) junk d p s = Ok (b, s') -> sized n m s' -> in_order n m Am Hm s'.
Proof using.
  intros (l0 & l1 & k0 & k1 & I & HD & CW & RX) E SZ. pose proof (step_shape d p s) as P. rewrite E in P. cbn [pc] in P. exists l0, l1, k0, k1.
  destruct P as [-> |(x & y & g & lb & ub & lbA & ubA & Ax & Al & Au & ->)].
  - split; [|split; [exact HD|split; [exact CW|exact RX]]]. destruct I as [W F Y A T]. constructor; [destruct W; constructor; assumption|destruct F; constructor; assumption|exact Y|exact A|exact T].
  - split; [|split; [exact HD|split; [exact CW|exact RX]]]. destruct I as [W F Y A T]. destruct SZ. constructor; [destruct W; constructor; assumption|destruct F; constructor; assumption|assumption|exact A|exact T].
Qed.

(** ** The iteration *)
(** QProblem.cpp:1623-1723: what follows when the homotopy has not ended *)
Definition go_on (nWSR iter : Z) (d : pshift (N := N)) (p : pstep (N := N)) (k : block (N := N)) (s : qp N)
  : res (ctl (qp N * pshift (N := N) * pstep (N := N)) (returnValue * Z * qp N)) :=
  '(r, s) <- p_changeActiveSet (N := N) junk k s ;;
  if negb (r =r? SUCCESSFUL_RETURN) then
    if q_infeasible (p_b s) then
      Ok (Brk (RET_HOTSTART_STOPPED_INFEASIBILITY, iter, up_b (N := N) (fun b => set_q_infeasible (N := N) true (set_q_status (N := N) QPS_HOMOTOPYQPSOLVED b)) s))
    else if q_unbounded (p_b s) then Ok (Brk (RET_HOTSTART_STOPPED_UNBOUNDEDNESS, iter, s))
    else Ok (Brk (r, iter, s))
  else
  '(r, s) <- p_afterChange (N := N) (bk_st k) iter (up_b (N := N) (fun b => set_q_wsc (N := N) (q_wsc b + 1) b) s) ;;
  if negb (r =r? SUCCESSFUL_RETURN) then Ok (Brk (r, nWSR, s)) else Ok (Next (s, d, p)).

(** the iterate has moved along the homotopy, and nothing was passed *)
Definition advanced (del : R) (n m : Z) (Hm Am : Z -> Z -> R) (s s' : qp N) : Prop :=
  steady (del + eps) n m Hm Am s' /\ no_limit_passed eps zero infty n m Am s s' /\ no_sign_changed eps zero infty n m s s' /\
  p_bounds s' = p_bounds s /\ p_cons s' = p_cons s /\ p_opts s' = p_opts s /\ in_order n m Am Hm s'.

Lemma iter_rest del n m Am Hm (s : qp N) (gn : arr) lbn ubn lbAn ubAn nWSR iter (d : pshift (N := N)) (p : pstep (N := N)) :
  in_order n m Am Hm s -> steady del n m Hm Am s -> asked n m gn lbn ubn lbAn ubAn -> fits eps zero infty s d p ->
  (0 <= o_numRefinementSteps (p_opts s))%Z -> 0 < o_epsDen (p_opts s) -> o_epsNum (p_opts s) <= 0 -> 0 <= o_terminationTolerance (p_opts s) ->
  forall X, X = ('(d, bCz, bBz) <- p_determineDataShift (N := N) gn lbn ubn lbAn ubAn s d ;;
    '(r, p, s) <- p_stepDirection (N := N) d bCz bBz p s ;;
    if negb (r =r? SUCCESSFUL_RETURN) then Ok (Brk (r, iter, s)) else
    '(k, s) <- p_performStep (N := N) junk d p s ;;
    len <- p_getRelativeHomotopyLength (N := N) gn lbn ubn lbAn ubAn s ;;
    if nleb (n := N) len (o_terminationTolerance (p_opts s)) then Ok (Brk (SUCCESSFUL_RETURN, iter, up_b (N := N) (set_q_status (N := N) QPS_SOLVED) s))
    else go_on nWSR iter d p k s) ->
  (exists rv s', excused eps zero infty s rv /\ X = Ok (Brk (rv, iter, s'))) \/
  (exists s', X = Ok (Brk (SUCCESSFUL_RETURN, iter, s')) /\ q_status (p_b s') = QPS_SOLVED /\ advanced del n m Hm Am s s' /\
     near_data (o_terminationTolerance (p_opts s)) n m gn lbn ubn lbAn ubAn s') \/
  (exists b s' d' p', X = go_on nWSR iter d' p' b s' /\ advanced del n m Hm Am s s' /\ bk_t b < 1 /\ stopped eps zero infty n m Am s s' b).
Proof using zero_0 eps_pos J.
  intros IO SD AK FT NR ED EN TT X ->. pose proof IO as (l0 & l1 & k0 & k1 & I & (HE & _) & CW & RX).
  pose proof SD as [SZ _ _ _ sB sC _ _ _]. pose proof (sz_V _ _ _ _ _ _ SZ) as EV. pose proof (sz_C _ _ _ _ _ _ SZ) as EC.
  pose proof (pw_b _ _ _ _ _ _ _ _ _ _ _ (pi_w _ _ _ _ _ _ _ _ _ _ _ I)) as WB. pose proof (pw_c _ _ _ _ _ _ _ _ _ _ _ (pi_w _ _ _ _ _ _ _ _ _ _ _ I)) as WC.
  pose proof FT as (F1 & F2 & F3 & F4 & F5 & F6 & F7 & F8 & F9). rewrite EV, EC in *.
  destruct (wp_inv _ _ (dataShift_ok n m gn lbn ubn lbAn ubAn s d l0 l1 k0 k1 SZ WB WC sB sC AK F1 F2 F3 F4 F5)) as (((d' & bCz) & bBz) & E & (G1 & G2 & G3 & G4 & G5) & SH & FR). rewrite E. cbn [bind].
  assert (SC : scratch eps zero infty s) by (unfold scratch; rewrite EV, EC; destruct CW as [C1 C2 C3 C4 C5 C6 C7]; exact (conj C1 (conj C2 (conj C3 (conj C4 (conj C5 (conj C6 C7))))))).
  assert (FT' : fits eps zero infty s d' p) by (unfold fits; rewrite EV, EC; auto 10).
  destruct (direction eps zero infty ltac:(lra) ltac:(lra) n m Am Hm s l0 l1 k0 k1 I HE RX d' bCz bBz p SC FT' NR ltac:(rewrite EV; exact sB) ltac:(rewrite EC; exact sC)) as (rv & p' & s'' & E1 & (c & -> & SC') & FT2 & P).
  rewrite E1. cbn [bind]. destruct P as [P|[(_ & _ & P)|(-> & (dx & dy & dyA & UN) & LI)]]; [left|exfalso; lra|right].
  { exists rv, (scr_to (N := N) c s). split; [exact P|]. destruct P as [(-> & _)|(-> & _)]; reflexivity. }
  specialize (LI dx dy dyA UN).
  destruct (C68_step eps zero infty zero_0 junk J del n m Hm Am (scr_to (N := N) c s) d' bCz bBz p' dx dy dyA ltac:(lra) (steady_scr del n m Hm Am s c SD) FR FT2 UN LI ED EN)
    as (b & s' & E2 & ST & T1 & (MB & MC) & NL & NS & SP & EB & EK & EO).
  match goal with |- context [negb ?q] => change (negb q) with false end. cbv iota. rewrite E2. cbn [bind].
  assert (AD : advanced del n m Hm Am s s').
  { split; [|split; [exact NL|split; [exact NS|split; [exact EB|split; [exact EK|split; [exact EO|]]]]]].
    2:{ refine (step_in_order n m Am Hm d' p' b (scr_to (N := N) c s) s' (in_order_scr n m Am Hm s c IO _) E2 (e_sz _ _ _ _ _ _ _ _ _ ST)).
        destruct SC' as (C1 & C2 & C3 & C4 & C5 & C6 & C7). change (pV (scr_to (N := N) c s)) with (pV s) in *. change (pC (scr_to (N := N) c s)) with (pC s) in *. rewrite EV, EC in *. constructor; assumption. }
    eapply steady_mono; [|exact ST]. unfold drift. destruct (bCz || bBz); lra. }
  pose proof (e_sz _ _ _ _ _ _ _ _ _ ST) as SZ'.
  destruct (wp_inv _ _ (length_ok n m gn lbn ubn lbAn ubAn s' SZ' AK)) as (len & E3 & ND). rewrite E3. cbn [bind].
  change (p_opts (scr_to (N := N) c s)) with (p_opts s) in EO. rewrite EO. rnum. destruct (Rleb_spec len (o_terminationTolerance (p_opts s))) as [L|L].
  - left. exists (up_b (N := N) (set_q_status (N := N) QPS_SOLVED) s'). split; [reflexivity|]. split; [reflexivity|]. split.
    + destruct AD as (A1 & A2 & A3 & A4 & A5 & A6 & A7). split; [apply steady_solved; exact A1|]. split; [exact A2|]. split; [exact A3|]. split; [exact A4|]. split; [exact A5|]. split; [exact A6|exact (in_order_relabel _ _ _ _ _ _ A7)].
    + destruct ND as (N1 & N2 & N3 & N4 & N5). split; [intros i Hi; exact (near_mono _ _ _ _ L (N1 i Hi))|]. repeat split; eapply near_opt_mono; try exact L; assumption.
  - right. exists b, s', d', p'. split; [reflexivity|]. split; [exact AD|]. destruct SP as [(_ & Et)|SP]; [exfalso|exact SP].
    destruct SH as (SHB & SHC). rewrite Et in MB, MC. rewrite Rmax_left in MB, MC by lra.
    rewrite (length_0 n m gn lbn ubn lbAn ubAn s' SZ' AK) in E3; [injection E3 as <-; lra|]. split.
    + intros i Hi. destruct (MB i Hi) as (_ & _ & -> & -> & ->). destruct (SHB i Hi) as (-> & -> & ->).
      change (zn 0 (q_g (p_b (scr_to (N := N) c s))) i) with (zn 0 (q_g (p_b s)) i). change (lB (scr_to (N := N) c s) i) with (lB s i). change (uB (scr_to (N := N) c s) i) with (uB s i). repeat split; ring.
    + intros k Hk. destruct (MC k Hk) as (_ & -> & ->). destruct (SHC k Hk) as (-> & ->).
      change (lC (scr_to (N := N) c s) k) with (lC s k). change (uC (scr_to (N := N) c s) k) with (uC s k). split; ring.
Qed.

Lemma iteration_from del n m Am Hm (s : qp N) (gn : arr) lbn ubn lbAn ubAn nWSR performed iter (d : pshift (N := N)) (p : pstep (N := N)) :
  in_order n m Am Hm s ->
  steady del n m Hm Am s -> asked n m gn lbn ubn lbAn ubAn -> fits eps zero infty s d p ->
  (0 <= o_numRefinementSteps (p_opts s))%Z -> 0 < o_epsDen (p_opts s) -> o_epsNum (p_opts s) <= 0 -> 0 <= o_terminationTolerance (p_opts s) ->
  let X := p_solveIter (N := N) junk cpu gn lbn ubn lbAn ubAn nWSR performed iter (s, d, p) in
  ((performed < iter)%Z /\ cpu (q_clk (p_b s)) = true /\ exists c, X = Ok (Brk (RET_MAX_NWSR_REACHED, iter, c))) \/
  (exists rv s', excused eps zero infty s rv /\ X = Ok (Brk (rv, iter, s'))) \/
  (exists s', X = Ok (Brk (SUCCESSFUL_RETURN, iter, s')) /\ q_status (p_b s') = QPS_SOLVED /\ advanced del n m Hm Am s s' /\
     near_data (o_terminationTolerance (p_opts s)) n m gn lbn ubn lbAn ubAn s') \/
  (exists b s' d' p', X = go_on nWSR iter d' p' b s' /\ advanced del n m Hm Am s s' /\ bk_t b < 1 /\ stopped eps zero infty n m Am s s' b).
Proof using zero_0 eps_pos J.
  intros IO SD AK FT NR ED EN TT X. unfold X, p_solveIter, cpuExceeded. clear X.
  destruct (Z.leb_spec (iter - performed) 0).
  - right. apply (iter_rest del n m Am Hm (up_b (N := N) (set_q_status (N := N) QPS_PERFORMINGHOMOTOPY) (set_p_b (N := N) (p_b s) s)) gn lbn ubn lbAn ubAn nWSR iter d p
      (in_order_status _ _ _ _ _ _ IO) (steady_status _ _ _ _ _ _ _ SD) AK FT NR ED EN TT _ eq_refl).
  - destruct (cpu (q_clk (p_b s))); [left; split; [lia|split; [reflexivity|eexists; reflexivity]]|right].
    apply (iter_rest del n m Am Hm (labelled (q_clk (p_b s) + 1) QPS_PERFORMINGHOMOTOPY s) gn lbn ubn lbAn ubAn nWSR iter d p
      (in_order_labelled _ _ _ _ _ _ _ IO) (steady_labelled _ _ _ _ _ _ _ _ SD) AK FT NR ED EN TT _ eq_refl).
Qed.
(** one iteration of solveQP, from every state left by working set changes *)
Theorem C69_iteration del n m Am Hm (s0 s1 s : qp N) os (gn : arr) lbn ubn lbAn ubAn nWSR performed iter (d : pshift (N := N)) (p : pstep (N := N)) :
  ready eps zero infty n m Am Hm s0 -> setupTQfactorisation (N := N) s0 = Ok (SUCCESSFUL_RETURN, s1) -> exec eps zero infty junk (sound eps zero infty Hm) Am false s1 os true s ->
  steady del n m Hm Am s -> asked n m gn lbn ubn lbAn ubAn -> fits eps zero infty s d p ->
  (0 <= o_numRefinementSteps (p_opts s))%Z -> 0 < o_epsDen (p_opts s) -> o_epsNum (p_opts s) <= 0 -> 0 <= o_terminationTolerance (p_opts s) ->
  let X := p_solveIter (N := N) junk cpu gn lbn ubn lbAn ubAn nWSR performed iter (s, d, p) in
  ((performed < iter)%Z /\ cpu (q_clk (p_b s)) = true /\ exists c, X = Ok (Brk (RET_MAX_NWSR_REACHED, iter, c))) \/
  (exists rv s', excused eps zero infty s rv /\ X = Ok (Brk (rv, iter, s'))) \/
  (exists s', X = Ok (Brk (SUCCESSFUL_RETURN, iter, s')) /\ q_status (p_b s') = QPS_SOLVED /\ advanced del n m Hm Am s s' /\
     near_data (o_terminationTolerance (p_opts s)) n m gn lbn ubn lbAn ubAn s') \/
  (exists b s' d' p', X = go_on nWSR iter d' p' b s' /\ advanced del n m Hm Am s s' /\ bk_t b < 1 /\ stopped eps zero infty n m Am s s' b).
Proof using zero_0 eps_pos J.
  intros RD E0 EX. apply iteration_from. exact (exec_in_order n m Am Hm s0 s1 os s RD E0 EX).
Qed.

(** ** What a success means for the requested problem *)
(** at the start every limit and every sign is respected up to [a] *)
Definition fair (a : R) (n m : Z) (Am : Z -> Z -> R) (s : qp N) : Prop :=
  (st_noLower (p_bounds s) = false /\ st_noUpper (p_bounds s) = false /\ st_noLower (p_cons s) = false /\ st_noUpper (p_cons s) = false) /\
  (forall i, (0 <= i < n)%Z -> match wsB s i with
    | ST_LOWER => tyB s i <> ST_EQUALITY -> - a <= yB s i
    | ST_UPPER => tyB s i <> ST_EQUALITY -> yB s i <= a
    | _ => tyB s i <> ST_EQUALITY /\ lB s i - a <= xB s i <= uB s i + a
    end) /\
  (forall k, (0 <= k < m)%Z -> match wsC s k with
    | ST_LOWER => tyC s k <> ST_EQUALITY -> - a <= yB s (n + k)
    | ST_UPPER => tyC s k <> ST_EQUALITY -> yB s (n + k) <= a
    | _ => tyC s k <> ST_EQUALITY /\ tyC s k <> ST_UNBOUNDED /\ lC s k - a <= act n Am s k <= uC s k + a
    end).
(** [x] is at the limit [l], up to [e] and the relative tolerance [tol] *)
Definition at_limit (e tol l x : R) : Prop := Rabs (x - l) <= e + tol * Rmax 1 (Rabs l).
Definition above (e tol l x : R) : Prop := l - (e + tol * Rmax 1 (Rabs l)) <= x.
Definition below (e tol u x : R) : Prop := x <= u + (e + tol * Rmax 1 (Rabs u)).
(** the optimality conditions of min 1/2 x'Hx + g'x with lb <= x <= ub and lbA <= Ax <= ubA, up to tolerances *)
Definition solves_upto (e tol : R) (n m : Z) (Hm Am : Z -> Z -> R) (g lb ub lbA ubA : Z -> R) (eqB eqC : Z -> Prop) (x y yA : Z -> R) : Prop :=
  (forall i, (0 <= i < n)%Z -> Rabs (matvec n Hm x i + g i - y i - rsum 0 m (fun k => Am k i * yA k)) <= tol * Rmax 1 (Rabs (g i))) /\
  (forall i, (0 <= i < n)%Z -> (y i = 0 /\ above e tol (lb i) (x i) /\ below e tol (ub i) (x i)) \/
     (at_limit e tol (lb i) (x i) /\ (eqB i \/ - e <= y i)) \/ (at_limit e tol (ub i) (x i) /\ (eqB i \/ y i <= e))) /\
  (forall k, (0 <= k < m)%Z -> let r := matvec n Am x k in (yA k = 0 /\ above e tol (lbA k) r /\ below e tol (ubA k) r) \/
     (at_limit e tol (lbA k) r /\ (eqC k \/ - e <= yA k)) \/ (at_limit e tol (ubA k) r /\ (eqC k \/ yA k <= e))).

Lemma go_on_fails nWSR iter d p b s k s' : go_on nWSR iter d p b s <> Ok (Brk (SUCCESSFUL_RETURN, k, s')).
Proof using.
  unfold go_on. intros E. destruct (p_changeActiveSet (N := N) junk b s) as [(r, s2)| |]; try discriminate E. cbn [bind] in E.
  destruct (r =r? SUCCESSFUL_RETURN) eqn:Er; cbn [negb] in E.
  - destruct (p_afterChange (N := N) (bk_st b) iter _) as [(r2, s3)| |]; try discriminate E. cbn [bind] in E.
    destruct (r2 =r? SUCCESSFUL_RETURN) eqn:Er2; cbn [negb] in E; [discriminate E|]. injection E as -> _ _. discriminate Er2.
  - destruct (q_infeasible (p_b s2)); [discriminate E|]. destruct (q_unbounded (p_b s2)); [discriminate E|]. injection E as -> _ _. discriminate Er.
Qed.
Lemma at_arith e del tol x l ln : del <= e -> near tol ln l -> Rabs (x - l) <= del -> at_limit e tol ln x.
Proof using.
  intros D Nr A. unfold at_limit. unfold near in Nr. replace (x - ln) with ((x - l) + - (ln - l)) by ring. eapply Rle_trans; [apply Rabs_triang|]. rewrite Rabs_Ropp. lra.
Qed.
Lemma above_arith a e ed tol x l x' l' ln : 0 <= a -> a + ed <= e -> near tol ln l' -> l - a <= x -> not_passed ed (x - l) (x' - l') -> above e tol ln x'.
Proof using.
  intros Ha He Nr A P. unfold above, not_passed, near in *. assert (- a <= Rmin (x - l) 0) by (apply Rmin_glb; lra). pose proof (Rle_abs (ln - l')). lra.
Qed.
Lemma below_arith a e ed tol x u x' u' un : 0 <= a -> a + ed <= e -> near tol un u' -> x <= u + a -> not_passed ed (u - x) (u' - x') -> below e tol un x'.
Proof using.
  intros Ha He Nr A P. unfold below, not_passed, near in *. assert (- a <= Rmin (u - x) 0) by (apply Rmin_glb; lra). pose proof (Rle_abs (- (un - u'))) as Q. rewrite Rabs_Ropp in Q. lra.
Qed.
Lemma sign_lo a e ed y y' : 0 <= a -> a + ed <= e -> - a <= y -> not_passed ed y y' -> - e <= y'.
Proof using. intros Ha He A P. unfold not_passed in P. assert (- a <= Rmin y 0) by (apply Rmin_glb; lra). lra. Qed.

Lemma eq_dec_stt (t : SubjectToType) : t = ST_EQUALITY \/ t <> ST_EQUALITY.
Proof using. destruct t; auto; right; discriminate. Qed.
Lemma answer_from del a n m Am Hm (s : qp N) (gn lbn ubn lbAn ubAn : arr) nWSR performed iter (d : pshift (N := N)) (p : pstep (N := N)) k s' :
  in_order n m Am Hm s ->
  steady del n m Hm Am s -> fair a n m Am s -> asked n m gn (Some lbn) (Some ubn) (Some lbAn) (Some ubAn) -> fits eps zero infty s d p ->
  (0 <= o_numRefinementSteps (p_opts s))%Z -> 0 < o_epsDen (p_opts s) -> 0 <= a <= - o_epsNum (p_opts s) -> 0 <= o_terminationTolerance (p_opts s) ->
  p_solveIter (N := N) junk cpu gn (Some lbn) (Some ubn) (Some lbAn) (Some ubAn) nWSR performed iter (s, d, p) = Ok (Brk (SUCCESSFUL_RETURN, k, s')) ->
  q_status (p_b s') = QPS_SOLVED /\ advanced del n m Hm Am s s' /\ near_data (o_terminationTolerance (p_opts s)) n m gn (Some lbn) (Some ubn) (Some lbAn) (Some ubAn) s' /\
  solves_upto (Rmax (del + eps) (a + o_epsDen (p_opts s))) (o_terminationTolerance (p_opts s)) n m Hm Am (zn 0 gn) (zn 0 lbn) (zn 0 ubn) (zn 0 lbAn) (zn 0 ubAn)
    (fun i => tyB s i = ST_EQUALITY) (fun i => tyC s i = ST_EQUALITY) (xB s') (yB s') (fun i => yB s' (n + i)%Z).
Proof using zero_0 eps_pos J.
  intros IO SD ((N1 & N2 & N3 & N4) & FB & FC) AK FT NR ED (A0 & A1) TT E.
  pose proof (iteration_from del n m Am Hm s gn (Some lbn) (Some ubn) (Some lbAn) (Some ubAn) nWSR performed iter d p IO SD AK FT NR ED ltac:(lra) TT) as C. cbv zeta in C. rewrite E in C.
  destruct C as [(_ & _ & c & C)|[(rv & c & P & C)|[(s2 & C & Q & AD & ND)|(b & s2 & d' & p' & C & _)]]].
  - discriminate C.
  - injection C as <- _ _. destruct P as [(P & _)|(P & _)]; discriminate P.
  - injection C as -> <-. split; [exact Q|]. split; [exact AD|]. split; [exact ND|]. destruct AD as (ST & (LB & LC) & (SB & SC) & EB & EK & EO & _). set (e := Rmax (del + eps) (a + o_epsDen (p_opts s))). set (tol := o_terminationTolerance (p_opts s)) in *.
    assert (E1 : del + eps <= e) by apply Rmax_l. assert (E2 : a + o_epsDen (p_opts s) <= e) by apply Rmax_r.
    destruct ND as (D1 & D2 & D3 & D4 & D5). cbn [near_opt] in D2, D3, D4, D5. destruct ST as [_ _ _ _ sB sC GR (NB & NC) _].
    assert (WSB : forall i, wsB s' i = wsB s i) by (intros i; unfold PropAuxP.wsB; now rewrite EB). assert (WSC : forall i, wsC s' i = wsC s i) by (intros i; unfold PropAuxP.wsC; now rewrite EK).
    split; [|split].
    + intros i Hi. specialize (GR i Hi). specialize (D1 i Hi). unfold near in D1. match goal with |- Rabs ?u <= _ => replace u with (zn 0 gn i - zn 0 (q_g (p_b s')) i) by lra end. exact D1.
    + intros i Hi. specialize (NB i Hi) as (B1 & B2 & B3). specialize (FB i Hi). specialize (D2 i Hi). specialize (D3 i Hi). specialize (sB i Hi). rewrite WSB in sB. rewrite WSB in B1, B2, B3.
      destruct sB as [W|[W|W]]; rewrite W in FB.
      * left. destruct FB as (TY & L & U). destruct (LB i Hi W TY) as (P1 & P2). split; [exact (B3 W)|]. split.
        -- apply (above_arith a e (o_epsDen (p_opts s)) tol (xB s i) (lB s i) (xB s' i) (lB s' i)); auto.
        -- apply (below_arith a e (o_epsDen (p_opts s)) tol (xB s i) (uB s i) (xB s' i) (uB s' i)); auto.
      * right. left. split; [apply (at_arith e (del + eps) tol _ (lB s' i)); auto|]. destruct (eq_dec_stt (tyB s i)) as [TY|TY]; [left; exact TY|right]. destruct (SB i Hi TY) as (P & _).
        apply (sign_lo a e (o_epsDen (p_opts s)) (yB s i)); auto. apply P; [exact W|]. specialize (FB TY). lra.
      * right. right. split; [apply (at_arith e (del + eps) tol _ (uB s' i)); auto|]. destruct (eq_dec_stt (tyB s i)) as [TY|TY]; [left; exact TY|right]. destruct (SB i Hi TY) as (_ & P). specialize (FB TY).
        assert (- e <= - yB s' i); [|lra]. apply (sign_lo a e (o_epsDen (p_opts s)) (- yB s i)); auto; [lra|]. apply P; [exact W|]. lra.
    + intros i Hi. cbv zeta. change (matvec n Am (xB s') i) with (act n Am s' i). specialize (NC i Hi) as (B1 & B2 & B3). specialize (FC i Hi). specialize (D4 i Hi). specialize (D5 i Hi). specialize (sC i Hi). rewrite WSC in sC. rewrite WSC in B1, B2, B3.
      destruct sC as [W|[W|W]]; rewrite W in FC.
      * left. destruct FC as (TY & TU & L & U). destruct (LC i Hi W TY TU) as (P1 & P2). split; [exact (B3 W)|]. split.
        -- apply (above_arith a e (o_epsDen (p_opts s)) tol (act n Am s i) (lC s i) (act n Am s' i) (lC s' i)); auto.
        -- apply (below_arith a e (o_epsDen (p_opts s)) tol (act n Am s i) (uC s i) (act n Am s' i) (uC s' i)); auto.
      * right. left. split; [apply (at_arith e (del + eps) tol _ (lC s' i)); auto|]. destruct (eq_dec_stt (tyC s i)) as [TY|TY]; [left; exact TY|right]. destruct (SC i Hi TY) as (P & _).
        apply (sign_lo a e (o_epsDen (p_opts s)) (yB s (n + i))); auto. apply P; [exact W|]. specialize (FC TY). lra.
      * right. right. split; [apply (at_arith e (del + eps) tol _ (uC s' i)); auto|]. destruct (eq_dec_stt (tyC s i)) as [TY|TY]; [left; exact TY|right]. destruct (SC i Hi TY) as (_ & P). specialize (FC TY).
        assert (- e <= - yB s' (n + i)); [|lra]. apply (sign_lo a e (o_epsDen (p_opts s)) (- yB s (n + i))); auto; [lra|]. apply P; [exact W|]. lra.
  - exfalso. symmetry in C. exact (go_on_fails _ _ _ _ _ _ _ _ C).
Qed.
Theorem C69_answer del a n m Am Hm (s0 s1 s : qp N) os (gn lbn ubn lbAn ubAn : arr) nWSR performed iter (d : pshift (N := N)) (p : pstep (N := N)) k s' :
  ready eps zero infty n m Am Hm s0 -> setupTQfactorisation (N := N) s0 = Ok (SUCCESSFUL_RETURN, s1) -> exec eps zero infty junk (sound eps zero infty Hm) Am false s1 os true s ->
  steady del n m Hm Am s -> fair a n m Am s -> asked n m gn (Some lbn) (Some ubn) (Some lbAn) (Some ubAn) -> fits eps zero infty s d p ->
  (0 <= o_numRefinementSteps (p_opts s))%Z -> 0 < o_epsDen (p_opts s) -> 0 <= a <= - o_epsNum (p_opts s) -> 0 <= o_terminationTolerance (p_opts s) ->
  p_solveIter (N := N) junk cpu gn (Some lbn) (Some ubn) (Some lbAn) (Some ubAn) nWSR performed iter (s, d, p) = Ok (Brk (SUCCESSFUL_RETURN, k, s')) ->
  q_status (p_b s') = QPS_SOLVED /\
  solves_upto (Rmax (del + eps) (a + o_epsDen (p_opts s))) (o_terminationTolerance (p_opts s)) n m Hm Am (zn 0 gn) (zn 0 lbn) (zn 0 ubn) (zn 0 lbAn) (zn 0 ubAn)
    (fun i => tyB s i = ST_EQUALITY) (fun i => tyC s i = ST_EQUALITY) (xB s') (yB s') (fun i => yB s' (n + i)%Z).
Proof using zero_0 eps_pos J.
  intros RD E0 EX SD FA AK FT NR ED A TT E.
  destruct (answer_from del a n m Am Hm s gn lbn ubn lbAn ubAn nWSR performed iter d p k s' (exec_in_order n m Am Hm s0 s1 os s RD E0 EX) SD FA AK FT NR ED A TT E) as (Q & _ & _ & SO). auto.
Qed.
End Iter.

(** ** Example: the hypotheses are met *)
Definition it_st (n : Z) (st : subjectTo) : subjectTo := mkST (st_n st) (repeat ST_BOUNDED (Z.to_nat n)) (st_status st) false false (st_ina st) (st_act st).
Definition it_A : amat tqN := ADense (N := tqN) (mkDense 1 2 2 tq_A).
Definition it_s (s : qp tqN) : qp tqN :=
  let b := set_q_regVal (N := tqN) 0 (set_q_lb (N := tqN) [-1; -1] (set_q_ub (N := tqN) [1; 1] (set_q_g (N := tqN) [0; 0] (set_q_x (N := tqN) [0; 0] (set_q_y (N := tqN) [0; 0; 0] (set_q_bounds (N := tqN) (it_st 2 (p_bounds s)) (p_b s))))))) in
  set_p_A (N := tqN) (Some it_A) (set_p_lbA (N := tqN) [-1] (set_p_ubA (N := tqN) [1] (set_p_Ax (N := tqN) [0] (set_p_Ax_l (N := tqN) [1] (set_p_Ax_u (N := tqN) [1] (set_p_cons (N := tqN) (it_st 1 (p_cons s)) (set_p_b (N := tqN) b s))))))).
Lemma it_wf n st a0 a1 : (0 <= n)%Z -> st_n st = n -> st_wf st a0 a1 -> st_wf (it_st n st) a0 a1.
Proof. intros Hn E []. constructor; auto. cbn. unfold zlen. rewrite repeat_length. lia. Qed.
Lemma it_full : amat_full tq_eps 0 tq_inf 1 2 it_A tq_Am.
Proof. apply (dense_amat_full tq_eps 0 tq_inf eq_refl); try (intros; reflexivity); unfold wf_dense; cbn; unfold zlen; cbn; lia. Qed.
Lemma it_ready s : plainH (p_b s) = true -> ready tq_eps 0 tq_inf 2 1 tq_Am tq_Hm s -> ready tq_eps 0 tq_inf 2 1 tq_Am tq_Hm (it_s s).
Proof.
  intros PH (l0 & l1 & k0 & W & F & Y & A & HD & CW). exists l0, l1, k0. split; [|split; [|split; [|split; [|split]]]].
  - destruct W. constructor; auto; [apply it_wf; auto; lia|apply it_wf; auto; lia|]. exists it_A. split; [reflexivity|]. apply (af_ok _ _ _ _ _ _ _ it_full).
  - destruct F. constructor; auto.
  - reflexivity.
  - exists it_A. split; [reflexivity|exact it_full].
  - destruct HD as (HE & SY & MB). split; [|split; [exact SY|exact MB]]. unfold hess in *. change (plainH (p_b (it_s s))) with (plainH (p_b s)). unfold plainH, is_hst in PH. destruct (q_htype (p_b s)) eqn:EH; try discriminate PH; change (q_htype (p_b (it_s s))) with (q_htype (p_b s)); rewrite EH; exact HE.
  - exact CW.
Qed.
Lemma it_sum2 (f : Z -> R) : rsum 0 2 f = f 0%Z + f 1%Z.
Proof. rewrite rsum_first by lia. rewrite rsum_first by lia. rewrite rsum_empty by lia. change (0 + 1)%Z with 1%Z. ring. Qed.
Lemma it_act (s : qp tqN) k : q_x (p_b s) = [0; 0] -> act tq_eps 0 tq_inf 2 tq_Am s k = 0.
Proof. intros E. unfold act. rewrite it_sum2. unfold PropAuxP.xB. rewrite E. change (tq_Am k 0 * 0 + tq_Am k 1 * 0 = 0). ring. Qed.
(** the factorised state of the example, for any options *)
Lemma it_state (o : options tqN) : exists s0 s1 s : qp tqN, ready tq_eps 0 tq_inf 2 1 tq_Am tq_Hm s0 /\ setupTQfactorisation (N := tqN) s0 = Ok (SUCCESSFUL_RETURN, s1) /\
  exec tq_eps 0 tq_inf tq_junk (sound tq_eps 0 tq_inf tq_Hm) tq_Am false s1 [OChol] true s /\ steady tq_eps 0 tq_inf 0 2 1 tq_Hm tq_Am s /\ fair tq_eps 0 tq_inf 0 2 1 tq_Am s /\
  (pV s = 2%Z /\ pC s = 1%Z) /\ (q_lb (p_b s) = [-1; -1] /\ q_ub (p_b s) = [1; 1] /\ p_lbA s = [-1] /\ p_ubA s = [1]) /\
  st_type (p_bounds s) = [ST_BOUNDED; ST_BOUNDED] /\ st_type (p_cons s) = [ST_BOUNDED] /\ plainH (p_b s) = true /\ usingReg (p_b s) = false /\ p_opts s = o.
Proof.
  destruct (C47_ready tq_eps 0 tq_inf tq_junk eq_refl tq_junk_ok 2 1 HST_UNKNOWN o tq_H [0; 0] tq_A None None None None) as (s & E & RD & V & C & O & HT & FX & AC & _ & IB & IC); try (exact I || lia || reflexivity || discriminate).
  { intros i j Hi Hj. assert (i = 0 \/ i = 1)%Z as [->| ->] by lia; assert (j = 0 \/ j = 1)%Z as [->| ->] by lia; reflexivity. }
  apply it_ready in RD; [|unfold plainH, is_hst; rewrite HT; reflexivity].
  destruct (C48_first_factorisation tq_eps 0 tq_inf tq_junk eq_refl tq_eps_pos tq_junk_ok 2 1 tq_Am tq_Hm (it_s s) RD tq_posdef) as (s0 & s1 & E0 & L0 & E1 & X1 & O1 & V1 & C1 & _ & K1 & B1 & T1); [unfold plainH, is_hst; change (q_htype (p_b (it_s s))) with (q_htype (p_b s)); rewrite HT; reflexivity|].
  assert (DT : dat (it_s s) s1).
  { pose proof (d_tq (N := tqN) (it_s s) (it_s s) (dat_refl (it_s s))) as P0. rewrite E0 in P0. cbn in P0.
    pose proof (d_cproj (N := tqN) (it_s s) s0 P0) as P1. change (computeProjectedCholesky (N := tqN) s0 = Ok (SUCCESSFUL_RETURN, s1)) in E1. rewrite E1 in P1. exact P1. }
  destruct DT as ((Ex & Ey & El & Eu & Eg & _ & ERv & _) & (EA & ElA & EuA & EAx & EAl & EAu) & EV & EC).
  change (pV (it_s s)) with (pV s) in EV. change (pC (it_s s)) with (pC s) in EC. rewrite V in EV. rewrite C in EC.
  change (q_x (p_b (it_s s))) with [0; 0] in Ex. change (q_y (p_b (it_s s))) with [0; 0; 0] in Ey. change (q_lb (p_b (it_s s))) with [-1; -1] in El. change (q_ub (p_b (it_s s))) with [1; 1] in Eu.
  change (q_g (p_b (it_s s))) with [0; 0] in Eg. change (p_lbA (it_s s)) with [-1] in ElA. change (p_ubA (it_s s)) with [1] in EuA. change (p_Ax (it_s s)) with [0] in EAx.
  change (p_Ax_l (it_s s)) with [1] in EAl. change (p_Ax_u (it_s s)) with [1] in EAu. change (p_A (it_s s)) with (Some it_A) in EA. change (p_opts (it_s s)) with (p_opts s) in O1. rewrite O in O1.
  assert (GS : forall (b : subjectTo) i, st_getStatus b i = Ok ST_INACTIVE -> (0 <= i < st_n b)%Z -> zs (st_status b) i = ST_INACTIVE).
  { intros b i Eg' Hi. unfold st_getStatus in Eg'. destruct (Z.leb_spec 0 i); [|lia]. destruct (Z.ltb_spec i (st_n b)); [|lia]. cbn [andb] in Eg'. apply rd_inv in Eg' as (_ & Eg'). apply Eg'. }
  assert (SB : forall i, (0 <= i < 2)%Z -> wsB tq_eps 0 tq_inf s1 i = ST_INACTIVE).
  { intros i Hi. unfold PropAuxP.wsB. rewrite B1. apply (GS (p_bounds s)); [apply IB; exact Hi|]. change (st_n (p_bounds s)) with (pV s). lia. }
  assert (SC : forall i, (0 <= i < 1)%Z -> wsC tq_eps 0 tq_inf s1 i = ST_INACTIVE).
  { intros i Hi. unfold PropAuxP.wsC. rewrite K1. apply (GS (p_cons s)); [apply IC; exact Hi|]. change (st_n (p_cons s)) with (pC s). lia. }
  assert (AT : forall k, act tq_eps 0 tq_inf 2 tq_Am s1 k = 0) by (intros k; apply it_act; exact Ex).
  assert (C2 : forall i, (0 <= i < 2)%Z -> i = 0%Z \/ i = 1%Z) by lia.
  exists (it_s s), s0, s1. split; [exact RD|]. split; [exact E0|]. split; [exact X1|].
  split; [|split; [|split; [split; assumption|split; [auto|split; [rewrite B1; reflexivity|split; [rewrite K1; reflexivity|split; [|split; [|exact O1]]]]]]]].
  - constructor.
    + constructor; first [lia|assumption|rewrite ?Ex, ?Ey, ?El, ?Eu, ?Eg, ?ElA, ?EuA, ?EAx, ?EAl, ?EAu; reflexivity].
    + destruct RD as (l0 & l1 & k0 & W & _). exists l0, l1. rewrite B1. apply W.
    + destruct RD as (l0 & l1 & k0 & W & _). exists k0, []. rewrite K1. apply W.
    + exists it_A. split; [exact EA|]. repeat split; cbn; unfold zlen; cbn; lia.
    + intros i Hi. left. auto.
    + intros i Hi. left. auto.
    + intros i Hi. unfold matvec. rewrite it_sum2. unfold PropAuxP.xB, PropAuxP.yB. rewrite Ex, Eg, Ey. rewrite rsum_first by lia. rewrite rsum_empty by lia.
      destruct (C2 i Hi) as [-> | ->]; [change (2 * 0 + 1 * 0 + 0 = 0 + (3 * 0 + 0))|change (1 * 0 + 2 * 0 + 0 = 0 + (4 * 0 + 0))]; ring.
    + split; intros i Hi; [rewrite (SB i Hi)|rewrite (SC i Hi)]; (split; [discriminate|split; [discriminate|intros _]]); unfold PropAuxP.yB; rewrite Ey; [destruct (C2 i Hi) as [-> | ->]; reflexivity|assert (i = 0%Z) as -> by lia; reflexivity].
    + intros k Hk _. unfold slack_right. rewrite AT. unfold PropAuxP.lC, PropAuxP.uC. rewrite EAx, EAl, EAu, ElA, EuA. assert (k = 0%Z) as -> by lia. change (0 = 0 /\ 1 = 0 - -1 /\ 1 = 1 - 0). lra.
  - split; [rewrite B1, K1; auto|]. split; intros i Hi.
    + rewrite (SB i Hi). unfold PropAuxP.tyB, PropAuxP.lB, PropAuxP.uB, PropAuxP.xB. rewrite B1, El, Eu, Ex. destruct (C2 i Hi) as [-> | ->]; (split; [discriminate|]); change (-1 - 0 <= 0 <= 1 + 0); lra.
    + rewrite (SC i Hi). unfold PropAuxP.tyC. rewrite AT. unfold PropAuxP.lC, PropAuxP.uC. rewrite K1, ElA, EuA. assert (i = 0%Z) as -> by lia. split; [discriminate|]. split; [discriminate|]. change (-1 - 0 <= 0 <= 1 + 0). lra.
  - unfold plainH, is_hst. rewrite T1. change (q_htype (p_b (it_s s))) with (q_htype (p_b s)). rewrite HT. reflexivity.
  - unfold usingReg. rewrite ERv. change (Rltb 0 0 = false). apply Rltb_false. lra.
Qed.
Example C69_ex : exists s0 s1 s (d : pshift (N := tqN)) (p : pstep (N := tqN)), ready tq_eps 0 tq_inf 2 1 tq_Am tq_Hm s0 /\ setupTQfactorisation (N := tqN) s0 = Ok (SUCCESSFUL_RETURN, s1) /\
  exec tq_eps 0 tq_inf tq_junk (sound tq_eps 0 tq_inf tq_Hm) tq_Am false s1 [OChol] true s /\ steady tq_eps 0 tq_inf 0 2 1 tq_Hm tq_Am s /\ fair tq_eps 0 tq_inf 0 2 1 tq_Am s /\
  asked tq_eps 0 tq_inf 2 1 [1; 0] (Some [-1; -1]) (Some [1; 1]) (Some [-1]) (Some [1]) /\ fits tq_eps 0 tq_inf s d p /\
  (0 <= o_numRefinementSteps (p_opts s))%Z /\ 0 < o_epsDen (p_opts s) /\ 0 <= 0 <= - o_epsNum (p_opts s) /\ 0 <= o_terminationTolerance (p_opts s) /\
  q_lb (p_b s) = [-1; -1] /\ q_ub (p_b s) = [1; 1] /\ st_type (p_bounds s) = [ST_BOUNDED; ST_BOUNDED] /\ p_opts s = optDefault.
Proof.
  destruct (it_state optDefault) as (s0 & s & s1 & RD & E0 & X1 & SD & FA & (EV & EC) & (El & Eu & _) & ET & _ & _ & _ & O1).
  set (d := mkS (N := tqN) [0; 0] [0] [0] [0; 0] [0; 0]). set (p := mkP (N := tqN) [0; 0] [0; 0] [0] [0; 0]).
  exists s0, s, s1, d, p. split; [exact RD|]. split; [exact E0|]. split; [exact X1|]. split; [exact SD|]. split; [exact FA|]. split; [|split; [|split; [|split; [|split; [|split; [|auto]]]]]].
  - repeat split; cbn; unfold zlen; cbn; lia.
  - unfold fits. rewrite EV, EC. repeat split.
  - rewrite O1. vm_compute. discriminate.
  - rewrite O1. change (0 < Rlit 1 3 * tq_eps). change (Rlit 1 3) with (IZR (1 * 10 ^ 3)). change (1 * 10 ^ 3)%Z with 1000%Z. pose proof tq_eps_pos. lra.
  - rewrite O1. change (0 <= 0 <= - (- Rlit 1 3 * tq_eps)). change (Rlit 1 3) with (IZR (1 * 10 ^ 3)). change (1 * 10 ^ 3)%Z with 1000%Z. pose proof tq_eps_pos. lra.
  - rewrite O1. change (0 <= Rlit 5 6 * tq_eps). change (Rlit 5 6) with (IZR (5 * 10 ^ 6)). change (5 * 10 ^ 6)%Z with 5000000%Z. pose proof tq_eps_pos. lra.
Qed.
