(** C71, under the guard: chains of calls of solveQP that do not change the working
    set.  Every call may move a limit or the sign of a multiplier by epsDen without
    anyone noticing, and the next one still notices what is above epsNum; so the
    answers are right as long as the sum stays below -epsNum.  Exact arithmetic. *)
From Verif Require Import Base Types Num Options Indexlist IndexlistProofs Loops RSum LinSpec SafeLib SubjectTo SubjectToProofs SubjectToProofs2
  Flipper PropFlipper Matrices MatLib MatSafe CsLib PropDense PropSparse PropSparse2 LinAlg PropLinAlg QProblemB QPBSafe QPBSafe2 QPBEx QPBX1 QPBX2 QPBX5 QPBX8 QPBX9 QPBX11 PropHess PropAux PropRatio
  QProblem QProblem2 QProblem3 QProblem4 QProblem5 QPFrame PropNull QProblem6 QPFrame2 PropSQ PropAuxP QPX1 QPX2 QPX4 QPX8 QPX10 QPX14 QPX16 QPX18 QPX19 QPX20 QPX21 QPX13 QPX17 PropTQ PropTQ2 PropStepP PropStepQ PropIter.
Local Open Scope R_scope.

Section Chain.
Variables eps zero infty : R.
Hypothesis zero_0 : zero = 0.
Hypothesis eps_pos : 0 < eps.
Notation N := (RNumT eps zero infty).
Notation arr := (list R).
Variable junk : Z -> arr.
Hypothesis J : junk_ok (N := N) junk.
Variable cpu : Z -> bool.

Notation wsB := (wsB eps zero infty). Notation wsC := (wsC eps zero infty). Notation tyB := (tyB eps zero infty). Notation tyC := (tyC eps zero infty).
Notation xB := (xB eps zero infty). Notation yB := (yB eps zero infty). Notation lB := (lB eps zero infty). Notation uB := (uB eps zero infty). Notation lC := (lC eps zero infty). Notation uC := (uC eps zero infty).
Notation act := (act eps zero infty).
Notation steady := (steady eps zero infty).
Notation sized := (sized eps zero infty).
Notation in_order := (PropIter.in_order eps zero infty).
Notation fair := (fair eps zero infty).

(** ** Requests *)
Record request := mkReq { r_g : arr; r_lb : arr; r_ub : arr; r_lbA : arr; r_ubA : arr }.
(** complete, with finite bounds that are no equalities *)
Definition proper (n m : Z) (o : options N) (r : request) : Prop :=
  (n <= zlen (r_g r) /\ n <= zlen (r_lb r) /\ n <= zlen (r_ub r) /\ m <= zlen (r_lbA r) /\ m <= zlen (r_ubA r))%Z /\
  forall i, (0 <= i < n)%Z -> let l := zn 0 (r_lb r) i in let u := zn 0 (r_ub r) i in
    - infty < l - o_terminationTolerance o * Rmax 1 (Rabs l) /\ u + o_terminationTolerance o * Rmax 1 (Rabs u) < infty /\
    - infty + o_boundTolerance o <= l /\ u <= infty - o_boundTolerance o /\ l + o_boundTolerance o <= u.
(** one call that needs no working set change and reports success *)
Definition solved_at_once (r : request) (s s' : qp N) : Prop := exists nWSR,
  p_solveQP (N := N) junk cpu (r_g r) (Some (r_lb r)) (Some (r_ub r)) (Some (r_lbA r)) (Some (r_ubA r)) nWSR 0 s = Ok (SUCCESSFUL_RETURN, 0%Z, s').
Inductive solved_in_turn : list request -> qp N -> qp N -> Prop :=
| turn_0 s : solved_in_turn [] s s
| turn_S rs r s s1 s2 : solved_in_turn rs s s1 -> solved_at_once r s1 s2 -> solved_in_turn (rs ++ [r]) s s2.

(** ** Before the first iteration *)
Definition finite_bounds (n : Z) (s : qp N) : Prop := forall i, (0 <= i < n)%Z -> - infty < lB s i /\ uB s i < infty.
Definition no_eq_bounds (n : Z) (s : qp N) : Prop := forall i, (0 <= i < n)%Z -> tyB s i <> ST_EQUALITY.

Lemma types_kept n m (s : qp N) l0 l1 r : (0 < n)%Z -> sized n m s -> st_wf (p_bounds s) l0 l1 -> proper n m (p_opts s) r -> 0 <= o_terminationTolerance (p_opts s) ->
  wp (setupSubjectToType (N := N) (Some (r_lb r)) (Some (r_ub r)) (p_b s)) (fun b' => exists bd, b' = set_q_bounds (N := N) bd (p_b s) /\ same_ws (p_bounds s) bd /\
    st_noLower bd = false /\ st_noUpper bd = false /\ forall i, (0 <= i < n)%Z -> zt (st_type bd) i = ST_BOUNDED).
Proof using.
  intros Hn SZ W ((Lg & Ll & Lu & _) & PR) TT. destruct SZ. unfold setupSubjectToType. change (nV (p_b s)) with (pV s). rewrite sz_V. rcar.
  assert (FP : forall t, 0 <= o_terminationTolerance (p_opts s) * Rmax 1 (Rabs t)) by (intros t; apply Rmult_le_pos; [exact TT|]; pose proof (Rmax_l 1 (Rabs t)); lra).
  apply wp_bind. eapply wp_mono; [apply (someFinite_exact eps zero infty (r_lb r) n (fun v => Rltb (- infty) v)); lia|]. intros lo Hlo.
  apply wp_bind. eapply wp_mono; [apply (someFinite_exact eps zero infty (r_ub r) n (fun v => Rltb v infty)); lia|]. intros up Hup.
  destruct (PR 0%Z ltac:(lia)) as (P1 & P2 & _).
  assert (Elo : lo = true). { apply Hlo. exists 0%Z. split; [lia|]. rnum. apply Rltb_true. pose proof (FP (zn 0 (r_lb r) 0)). lra. }
  assert (Eup : up = true). { apply Hup. exists 0%Z. split; [lia|]. rnum. apply Rltb_true. pose proof (FP (zn 0 (r_ub r) 0)). lra. }
  subst lo up. cbn [negb]. apply wp_bind. pose proof (wf_type _ _ _ W) as WT. change (st_n (p_bounds s)) with (pV s) in WT. rewrite sz_V in WT.
  apply wp_for_up with (I := fun k b => same_ws (p_bounds s) b /\ st_noLower b = false /\ st_noUpper b = false /\ forall i, (0 <= i < k)%Z -> zt (st_type b) i = ST_BOUNDED).
  - lia.
  - split; [repeat split|]. split; [reflexivity|]. split; [reflexivity|]. intros; lia.
  - intros k b Hk ((B1 & B2 & B3 & B4 & B5) & B6 & B7 & B8).
    assert (SET : wp (b_setType b k ST_BOUNDED) (fun b => same_ws (p_bounds s) b /\ st_noLower b = false /\ st_noUpper b = false /\ forall i, (0 <= i < k + 1)%Z -> zt (st_type b) i = ST_BOUNDED)).
    { unfold b_setType, st_setType. rewrite B1. change (st_n (p_bounds s)) with (pV s). rewrite sz_V. destruct (Z.leb_spec 0 k); [|lia]. destruct (Z.ltb_spec k n); [|lia]. cbn [andb].
      rewrite wr_ok by lia. cbn. split; [repeat split; cbn; rewrite ?zlen_zupd; auto|]. split; [exact B6|]. split; [exact B7|].
      intros i Hi. rewrite zn_zupd by lia. destruct (Z.eqb_spec i k); [reflexivity|apply B8; lia]. }
    destruct (PR k Hk) as (_ & _ & Q1 & Q2 & Q3).
    rdx. rdx. rnum. change (q_opts (p_b s)) with (p_opts s).
    destruct (Rltb_spec (zn 0 (r_lb r) k) (- infty + o_boundTolerance (p_opts s))); [lra|]. cbn [andb]. rdx. rdx.
    destruct (Rltb_spec (zn 0 (r_ub r) k - o_boundTolerance (p_opts s)) (zn 0 (r_lb r) k)); [lra|]. rewrite andb_false_r. exact SET.
  - intros b (B1 & B2 & B3 & B4). cbn [wp]. exists b. auto.
Qed.

Lemma hot_prepared n m (s : qp N) l0 l1 r : (0 < n)%Z -> sized n m s -> st_wf (p_bounds s) l0 l1 -> proper n m (p_opts s) r -> 0 <= o_terminationTolerance (p_opts s) -> finite_bounds n s ->
  exists bd, updateActivitiesForHotstart (N := N) junk (Some (r_lb r)) (Some (r_ub r)) s = Ok (SUCCESSFUL_RETURN, set_p_b (N := N) (set_q_bounds (N := N) bd (p_b s)) s) /\ same_ws (p_bounds s) bd /\
    st_noLower bd = false /\ st_noUpper bd = false /\ forall i, (0 <= i < n)%Z -> zt (st_type bd) i = ST_BOUNDED.
Proof using.
  intros Hn SZ W PR TT FB. destruct (wp_inv _ _ (types_kept n m s l0 l1 r Hn SZ W PR TT)) as (b' & E & bd & -> & SW & NL & NU & TB).
  exists bd. split; [|auto]. unfold updateActivitiesForHotstart. cbv zeta. unfold on_b at 1. rewrite E. cbn [bind].
  set (s1 := set_p_b (N := N) _ s). assert (EV : pV s1 = n) by (change (st_n bd = n); rewrite (proj1 SW); apply SZ). pose proof (wf_type _ _ _ (same_ws_wf _ _ _ _ SW W)) as WT. rewrite EV.
  assert (EN : st_n bd = n) by exact EV.
  destruct PR as ((Lg & Ll & Lu & _) & PR). destruct SZ.
  assert (FP : forall t, 0 <= o_terminationTolerance (p_opts s) * Rmax 1 (Rabs t)) by (intros t; apply Rmult_le_pos; [exact TT|]; pose proof (Rmax_l 1 (Rabs t)); lra).
  match goal with |- bind ?X _ = _ => assert (E1 : X = Ok (Next s1)) end.
  { match goal with |- ?X = _ => enough (P : wp X (fun c => c = Next s1)) by (apply wp_inv in P as (c & -> & ->); reflexivity) end.
    apply wp_forb_up with (I := fun _ s' => s' = s1) (J := fun _ => False); [lia|reflexivity| |now intros ? ->|intros ? []].
    intros i s' Hi ->. destruct (PR i Hi) as (P1 & P2 & _). destruct (FB i Hi) as (F1 & F2). pose proof (FP (zn 0 (r_lb r) i)). pose proof (FP (zn 0 (r_ub r) i)).
    change (q_lb (p_b s1)) with (q_lb (p_b s)). change (q_ub (p_b s1)) with (q_ub (p_b s)). unfold PropAuxP.lB in F1. unfold PropAuxP.uB in F2.
    rdx. rnum. destruct (Rleb_spec (zn 0 (r_lb r) i) (- infty)); [lra|]. cbn [bind]. rdx. rnum.
    match goal with |- context [if negb ?q then _ else _] => change (negb q) with false end. cbv iota.
    destruct (Rleb_spec infty (zn 0 (r_ub r) i)); [lra|]. cbn [bind].
    match goal with |- context [if negb ?q then _ else _] => change (negb q) with false end. cbv iota.
    destruct (Rltb_spec (- infty) (zn 0 (r_lb r) i)); [|lra].
    change (q_lb (p_b s1)) with (q_lb (p_b s)). rdx. destruct (Rleb_spec (zn 0 (q_lb (p_b s)) i) (- infty)); [lra|]. cbn [bind].
    destruct (Rltb_spec (zn 0 (r_ub r) i) infty); [|lra]. change (q_ub (p_b s1)) with (q_ub (p_b s)). rdx. destruct (Rleb_spec infty (zn 0 (q_ub (p_b s)) i)); [lra|]. reflexivity. }
  rewrite E1. cbn [bind]. rewrite EV.
  match goal with |- bind ?X _ = _ => assert (E2 : X = Ok (Next s1)) end.
  { match goal with |- ?X = _ => enough (P : wp X (fun c => c = Next s1)) by (apply wp_inv in P as (c & -> & ->); reflexivity) end.
    apply wp_forb_up with (I := fun _ s' => s' = s1) (J := fun _ => False); [lia|reflexivity| |now intros ? ->|intros ? []].
    intros i s' Hi ->. change (p_bounds s1) with bd. unfold st_getType. rewrite EN. destruct (Z.leb_spec 0 i); [|lia]. destruct (Z.ltb_spec i n); [|lia]. cbn [andb].
    rewrite (rd_ok ST_UNKNOWN) by (rewrite WT, EN; lia). cbn [bind]. specialize (TB i Hi). rewrite TB. reflexivity. }
  rewrite E2. reflexivity.
Qed.

(** ** One call *)
Record standing (del a : R) (n m : Z) (Hm Am : Z -> Z -> R) (s : qp N) : Prop := {
  so_io : in_order n m Am Hm s;
  so_st : steady del n m Hm Am s;
  so_fair : fair a n m Am s;
  so_fin : finite_bounds n s;
  so_ty : no_eq_bounds n s
}.
(** the same problem and iterate, other types of the bounds *)
Lemma standing_typed del a n m Hm Am (s s' : qp N) bd : standing del a n m Hm Am s -> same_ws (p_bounds s) bd -> st_noLower bd = false -> st_noUpper bd = false -> (forall i, (0 <= i < n)%Z -> zt (st_type bd) i = ST_BOUNDED) ->
  s' = up_b (N := N) (fun b => set_q_unbounded (N := N) false (set_q_infeasible (N := N) false b)) (set_p_b (N := N) (set_q_bounds (N := N) bd (p_b (up_b (N := N) (set_q_status (N := N) QPS_PERFORMINGHOMOTOPY) s))) (up_b (N := N) (set_q_status (N := N) QPS_PERFORMINGHOMOTOPY) s)) ->
  standing del a n m Hm Am s'.
Proof using.
  intros [(l0 & l1 & k0 & k1 & I & HD & CW & RX) [SZ (b0 & b1 & WB) WC WA sB sC G L X] ((F1 & F2 & F3 & F4) & FB & FC) FI TY] SW NL NU TB ->. pose proof SW as (E1 & E2 & _).
  set (s' := up_b (N := N) _ _).
  assert (EV : pV s' = pV s) by exact E1.
  assert (WS : forall i, wsB s' i = wsB s i) by (intros i; change (zs (st_status bd) i = zs (st_status (p_bounds s)) i); now rewrite E2).
  assert (TY' : no_eq_bounds n s') by (intros i Hi; change (zt (st_type bd) i <> ST_EQUALITY); rewrite TB by exact Hi; discriminate).
  split.
  - exists l0, l1, k0, k1. split; [|split; [exact HD|split; [exact CW|exact RX]]].
    destruct I as [W F Y A T]. constructor; [|destruct F; constructor; assumption|exact Y|exact A|exact T].
    destruct W. constructor; try assumption; [rewrite EV; assumption|exact (same_ws_wf _ _ _ _ SW pw_b)].
  - constructor.
    + destruct SZ. constructor; try assumption. rewrite EV; assumption.
    + exists b0, b1. exact (same_ws_wf _ _ _ _ SW WB).
    + exact WC.
    + exact WA.
    + intros i Hi. rewrite WS. auto.
    + exact sC.
    + exact G.
    + destruct L as (LB & LC). split; [|exact LC]. intros i Hi. rewrite WS. exact (LB i Hi).
    + exact X.
  - split; [|split].
    + split; [exact NL|]. split; [exact NU|]. split; [exact F3|exact F4].
    + intros i Hi. rewrite WS. specialize (FB i Hi). pose proof (TY i Hi) as T1. pose proof (TY' i Hi) as T2. destruct (wsB s i); try (split; [exact T2|apply FB]); intros _; exact (FB T1).
    + exact FC.
  - exact FI.
  - exact TY'.
Qed.

Lemma iter_number gn lbn ubn lbAn ubAn nWSR performed iter st :
  pc (p_solveIter (N := N) junk cpu gn lbn ubn lbAn ubAn nWSR performed iter st) (fun c => match c with Brk e => fst (fst e) = SUCCESSFUL_RETURN -> snd (fst e) = iter | Next _ => True end).
Proof using.
  destruct st as ((s, d), p). unfold p_solveIter. destruct (cpuExceeded _ _ _) as (ex, b). destruct ex; [intros X; discriminate X|]. cbv zeta.
  apply pc_any. intros ((d', bCz), bBz). apply pc_any. intros ((r, p'), s1). destruct (r =r? SUCCESSFUL_RETURN); cbn [negb]; [|intros _; reflexivity].
  apply pc_any. intros (k, s2). apply pc_any. intros len. destruct (nleb _ _); [intros _; reflexivity|]. apply pc_any. intros (r2, s3).
  destruct (r2 =r? SUCCESSFUL_RETURN); cbn [negb].
  - apply pc_any. intros (r3, s4). destruct (r3 =r? SUCCESSFUL_RETURN) eqn:E3; cbn [negb]; [exact I|]. cbn [pc fst snd]. intros ->. discriminate E3.
  - destruct (q_infeasible _); [intros _; reflexivity|]. destruct (q_unbounded _); intros _; reflexivity.
Qed.
Lemma first_iteration gn lbn ubn lbAn ubAn nWSR st s' :
  forb_up 0 nWSR (p_solveIter (N := N) junk cpu gn lbn ubn lbAn ubAn nWSR 0) st = Ok (Brk (SUCCESSFUL_RETURN, 0%Z, s')) ->
  p_solveIter (N := N) junk cpu gn lbn ubn lbAn ubAn nWSR 0 0 st = Ok (Brk (SUCCESSFUL_RETURN, 0%Z, s')).
Proof using.
  unfold forb_up. destruct (Z.to_nat (nWSR - 0)) as [|k] eqn:Ek; [discriminate|]. cbn [forb_up_n].
  destruct (p_solveIter _ _ _ _ _ _ _ _ _ _ st) as [[st1|e]| |]; cbn [bind]; try discriminate; [|auto]. change (0 + 1)%Z with 1%Z. intros E. exfalso.
  assert (P : pc (forb_up 1 nWSR (p_solveIter (N := N) junk cpu gn lbn ubn lbAn ubAn nWSR 0) st1) (fun c => match c with Brk e => fst (fst e) = SUCCESSFUL_RETURN -> (1 <= snd (fst e))%Z | Next _ => True end)).
  { apply (pc_forb_up (fun _ _ => True) (fun e => fst (fst e) = SUCCESSFUL_RETURN -> (1 <= snd (fst e))%Z)); [exact I|]. intros i st2 Hi _. eapply pc_mono; [apply iter_number|]. intros [|e]; [auto|]. intros X Y. rewrite (X Y). lia. }
  unfold forb_up in P. replace (Z.to_nat (nWSR - 1)) with k in P by lia. rewrite E in P. cbn in P. specialize (P eq_refl). lia.
Qed.
Lemma fair_advanced del a n m Hm Am (s s' : qp N) : 0 <= a <= - o_epsNum (p_opts s) -> steady del n m Hm Am s -> fair a n m Am s -> advanced eps zero infty del n m Hm Am s s' -> fair (a + o_epsDen (p_opts s)) n m Am s'.
Proof using.
  intros (A0 & A1) SD ((N1 & N2 & N3 & N4) & FB & FC) (_ & (LB & LC) & (SB & SC) & EB & EK & EO & _). pose proof (e_sB _ _ _ _ _ _ _ _ _ SD) as sB. pose proof (e_sC _ _ _ _ _ _ _ _ _ SD) as sC.
  assert (WSB : forall i, wsB s' i = wsB s i) by (intros i; unfold PropAuxP.wsB; now rewrite EB). assert (WSC : forall i, wsC s' i = wsC s i) by (intros i; unfold PropAuxP.wsC; now rewrite EK).
  assert (TYB : forall i, tyB s' i = tyB s i) by (intros i; unfold PropAuxP.tyB; now rewrite EB). assert (TYC : forall i, tyC s' i = tyC s i) by (intros i; unfold PropAuxP.tyC; now rewrite EK).
  assert (NP : forall z z', - a <= z -> not_passed (o_epsDen (p_opts s)) z z' -> - (a + o_epsDen (p_opts s)) <= z').
  { intros z z' Hz P. unfold not_passed in P. assert (- a <= Rmin z 0) by (apply Rmin_glb; lra). lra. }
  split; [rewrite EB, EK; auto|]. split; intros i Hi; [rewrite WSB, TYB|rewrite WSC, TYC].
  - specialize (FB i Hi). specialize (sB i Hi). destruct sB as [W|[W|W]]; rewrite W in FB |- *.
    + destruct FB as (TY & L & U). destruct (LB i Hi W TY) as (P1 & P2). split; [exact TY|]. pose proof (NP (xB s i - lB s i) _ ltac:(lra) (P1 N1)). pose proof (NP (uB s i - xB s i) _ ltac:(lra) (P2 N2)). lra.
    + intros TY. destruct (SB i Hi TY) as (P & _). specialize (FB TY). specialize (NP _ _ FB (P W ltac:(lra))). lra.
    + intros TY. destruct (SB i Hi TY) as (_ & P). specialize (FB TY). specialize (NP (- yB s i) (- yB s' i) ltac:(lra) (P W ltac:(lra))). lra.
  - specialize (FC i Hi). specialize (sC i Hi). destruct sC as [W|[W|W]]; rewrite W in FC |- *.
    + destruct FC as (TY & TU & L & U). destruct (LC i Hi W TY TU) as (P1 & P2). split; [exact TY|]. split; [exact TU|]. pose proof (NP (act n Am s i - lC s i) _ ltac:(lra) (P1 N3)). pose proof (NP (uC s i - act n Am s i) _ ltac:(lra) (P2 N4)). lra.
    + intros TY. destruct (SC i Hi TY) as (P & _). specialize (FC TY). specialize (NP _ _ FC (P W ltac:(lra))). lra.
    + intros TY. destruct (SC i Hi TY) as (_ & P). specialize (FC TY). specialize (NP (- yB s (n + i)) (- yB s' (n + i)) ltac:(lra) (P W ltac:(lra))). lra.
Qed.

Definition settings (o : options N) : Prop := (0 <= o_numRefinementSteps o)%Z /\ 0 < o_epsDen o /\ 0 <= o_terminationTolerance o.
Definition solves (e : R) (n m : Z) (Hm Am : Z -> Z -> R) (r : request) (s : qp N) : Prop :=
  solves_upto e (o_terminationTolerance (p_opts s)) n m Hm Am (zn 0 (r_g r)) (zn 0 (r_lb r)) (zn 0 (r_ub r)) (zn 0 (r_lbA r)) (zn 0 (r_ubA r))
    (fun _ => False) (fun k => tyC s k = ST_EQUALITY) (xB s) (yB s) (fun k => yB s (n + k)%Z).
Lemma one_call del a n m Hm Am (s s' : qp N) r : (0 < n)%Z -> standing del a n m Hm Am s -> settings (p_opts s) -> 0 <= a <= - o_epsNum (p_opts s) -> proper n m (p_opts s) r -> solved_at_once r s s' ->
  standing (del + eps) (a + o_epsDen (p_opts s)) n m Hm Am s' /\ p_opts s' = p_opts s /\ p_cons s' = p_cons s /\ q_status (p_b s') = QPS_SOLVED /\
  solves (Rmax (del + eps) (a + o_epsDen (p_opts s))) n m Hm Am r s'.
Proof using zero_0 eps_pos J.
  intros Hn SO (NR & ED & TT) A PR (nWSR & E). unfold p_solveQP in E.
  pose proof SO as [_ SD _ FI _]. pose proof (e_sz _ _ _ _ _ _ _ _ _ SD) as SZ. destruct (e_B _ _ _ _ _ _ _ _ _ SD) as (l0 & l1 & WB).
  set (s0 := up_b (N := N) (set_q_status (N := N) QPS_PERFORMINGHOMOTOPY) s) in E.
  destruct (hot_prepared n m s0 l0 l1 r Hn ltac:(destruct SZ; constructor; assumption) WB PR TT FI) as (bd & E1 & SW & NL & NU & TB).
  set (s1 := set_p_b (N := N) _ s0) in E1. set (s2 := up_b (N := N) (fun b => set_q_unbounded (N := N) false (set_q_infeasible (N := N) false b)) s1).
  assert (SO2 : standing del a n m Hm Am s2) by (apply (standing_typed del a n m Hm Am s s2 bd SO SW NL NU TB eq_refl)).
  assert (EV : pV s2 = n) by (change (st_n bd = n); rewrite (proj1 SW); apply SZ). assert (EC : pC s2 = m) by apply SZ.
  assert (X : forb_up 0 nWSR (p_solveIter (N := N) junk cpu (r_g r) (Some (r_lb r)) (Some (r_ub r)) (Some (r_lbA r)) (Some (r_ubA r)) nWSR 0)
     (s2, mkS (N := N) (junk n) (junk m) (junk m) (junk n) (junk n), mkP (N := N) (junk n) (junk n) (junk m) (junk n)) = Ok (Brk (SUCCESSFUL_RETURN, 0%Z, s'))).
  { destruct (q_status (p_b s)); try discriminate E.
    all: rewrite E1 in E; cbn [bind] in E; match type of E with context [negb ?q] => change (negb q) with false in E end; cbv iota beta zeta in E; fold s2 in E; rewrite EV, EC in E.
    all: match goal with |- ?Y = _ => destruct Y as [[((u, v), w)|(e, w)]| |]; cbn [bind] in E; try discriminate E; injection E as -> ->; reflexivity end. }
  apply first_iteration in X. destruct SO2 as [IO2 SD2 FA2 FI2 TY2].
  assert (AK : asked eps zero infty n m (r_g r) (Some (r_lb r)) (Some (r_ub r)) (Some (r_lbA r)) (Some (r_ubA r))) by (destruct PR as ((P1 & P2 & P3 & P4 & P5) & _); repeat split; assumption).
  destruct SZ as [Z1 Z2 _ _ _ _ _ _ _ _ _ _ _ _].
  assert (FT : fits eps zero infty s2 (mkS (N := N) (junk n) (junk m) (junk m) (junk n) (junk n)) (mkP (N := N) (junk n) (junk n) (junk m) (junk n))).
  { unfold fits. rewrite EV, EC. cbn [sh_g sh_lbA sh_ubA sh_lb sh_ub sp_xFX sp_xFR sp_yAC sp_yFX]. assert (Jn := J n Z1). assert (Jm := J m Z2). auto 12. }
  destruct (answer_from eps zero infty zero_0 eps_pos junk J cpu del a n m Am Hm s2 (r_g r) (r_lb r) (r_ub r) (r_lbA r) (r_ubA r) nWSR 0 0 _ _ 0 s' IO2 SD2 FA2 AK FT NR ED A TT X) as (Q & AD & ND & SU).
  pose proof AD as (ST & _ & _ & EB & EK & EO & IO'). change (p_opts s2) with (p_opts s) in EO, SU, ND.
  split; [|split; [exact EO|split; [exact EK|split; [exact Q|]]]].
  - split; [exact IO'|exact ST|exact (fair_advanced del a n m Hm Am s2 s' A SD2 FA2 AD)| |].
    + intros i Hi. destruct PR as (_ & PR). destruct (PR i Hi) as (P1 & P2 & _). destruct ND as (_ & NB & NB' & _). cbn [near_opt] in NB, NB'. specialize (NB i Hi). specialize (NB' i Hi). unfold near in NB, NB'.
      unfold PropAuxP.lB in *. unfold PropAuxP.uB in *.
      pose proof (Rle_abs (zn 0 (r_lb r) i - zn 0 (q_lb (p_b s')) i)). pose proof (Rle_abs (- (zn 0 (r_ub r) i - zn 0 (q_ub (p_b s')) i))) as B. rewrite Rabs_Ropp in B. split; lra.
    + intros i Hi. unfold PropAuxP.tyB. rewrite EB. exact (TY2 i Hi).
  - unfold solves. rewrite EO. destruct SU as (S1 & S2 & S3). split; [exact S1|]. split.
    + intros i Hi. destruct (S2 i Hi) as [P|[(P & [T|P2])|(P & [T|P2])]]; [left; exact P|exfalso; exact (TY2 i Hi T)|right; left; auto|exfalso; exact (TY2 i Hi T)|right; right; auto].
    + intros k Hk. unfold PropAuxP.tyC. rewrite EK. exact (S3 k Hk).
Qed.

(** ** The theorem *)
Theorem C71_chain del a n m Am Hm (s0 s1 s : qp N) os (rs : list request) (r : request) (s' s'' : qp N) :
  ready eps zero infty n m Am Hm s0 -> setupTQfactorisation (N := N) s0 = Ok (SUCCESSFUL_RETURN, s1) -> exec eps zero infty junk (sound eps zero infty Hm) Am false s1 os true s ->
  (0 < n)%Z -> steady del n m Hm Am s -> fair a n m Am s -> finite_bounds n s -> no_eq_bounds n s -> settings (p_opts s) ->
  let k := IZR (zlen rs) in
  0 <= a -> a + k * o_epsDen (p_opts s) <= - o_epsNum (p_opts s) ->
  solved_in_turn rs s s' -> Forall (proper n m (p_opts s)) (rs ++ [r]) -> solved_at_once r s' s'' ->
  q_status (p_b s'') = QPS_SOLVED /\ p_opts s'' = p_opts s /\ solves (Rmax (del + (k + 1) * eps) (a + (k + 1) * o_epsDen (p_opts s))) n m Hm Am r s''.
Proof using zero_0 eps_pos J.
  intros RD E0 EX Hn SD FA FI TY SE k A0 A1 CH PR HR. pose proof (exec_in_order eps zero infty zero_0 eps_pos junk J n m Am Hm s0 s1 os s RD E0 EX) as IO.
  assert (INV : standing (del + k * eps) (a + k * o_epsDen (p_opts s)) n m Hm Am s' /\ p_opts s' = p_opts s).
  { apply Forall_app in PR as (PR & _). clear HR. unfold k in *. clear k. pose proof SE as (_ & ED & _). induction CH as [s|rs r' s s2 s3 CH IH HR].
    - change (zlen (@nil request)) with 0%Z. rewrite !Rmult_0_l, !Rplus_0_r. split; [constructor; assumption|reflexivity].
    - rewrite zlen_app in A1 |- *. change (zlen [r']) with 1%Z in *. rewrite plus_IZR in A1 |- *. apply Forall_app in PR as (PR & PR'). inversion PR' as [|? ? PRr _]. subst.
      destruct IH as (SO & EO); auto; [lra|].
      assert (K0 : 0 <= IZR (zlen rs)) by (apply IZR_le, zlen_nonneg).
      destruct (one_call _ _ n m Hm Am s2 s3 r' Hn SO ltac:(rewrite EO; exact SE) ltac:(rewrite EO; split; [nra|lra]) ltac:(rewrite EO; exact PRr) HR) as (SO' & EO' & _).
      rewrite EO in SO'. split; [|congruence]. replace (del + (IZR (zlen rs) + 1) * eps) with (del + IZR (zlen rs) * eps + eps) by ring. replace (a + (IZR (zlen rs) + 1) * o_epsDen (p_opts s)) with (a + IZR (zlen rs) * o_epsDen (p_opts s) + o_epsDen (p_opts s)) by ring. exact SO'. }
  destruct INV as (SO & EO). apply Forall_app in PR as (_ & PR). inversion PR as [|? ? PRr _]. subst.
  assert (K0 : 0 <= k) by (apply IZR_le, zlen_nonneg). pose proof SE as (_ & ED & _).
  destruct (one_call _ _ n m Hm Am s' s'' r Hn SO ltac:(rewrite EO; exact SE) ltac:(rewrite EO; split; [nra|lra]) ltac:(rewrite EO; exact PRr) HR) as (_ & EO' & _ & Q & SV).
  split; [exact Q|]. split; [congruence|]. rewrite EO in SV.
  replace (del + (k + 1) * eps) with (del + k * eps + eps) by ring. replace (a + (k + 1) * o_epsDen (p_opts s)) with (a + k * o_epsDen (p_opts s) + o_epsDen (p_opts s)) by ring. exact SV.
Qed.
End Chain.

(** ** Example: the hypotheses are met, with one request before the last one *)
Definition ch_r (g0 : R) : request := mkReq [g0; 0] [-1; -1] [1; 1] [-1] [1].
Example C71_ex : exists s0 s1 s : qp tqN, ready tq_eps 0 tq_inf 2 1 tq_Am tq_Hm s0 /\ setupTQfactorisation (N := tqN) s0 = Ok (SUCCESSFUL_RETURN, s1) /\
  exec tq_eps 0 tq_inf tq_junk (sound tq_eps 0 tq_inf tq_Hm) tq_Am false s1 [OChol] true s /\ steady tq_eps 0 tq_inf 0 2 1 tq_Hm tq_Am s /\ fair tq_eps 0 tq_inf 0 2 1 tq_Am s /\
  finite_bounds tq_eps 0 tq_inf 2 s /\ no_eq_bounds tq_eps 0 tq_inf 2 s /\ settings tq_eps 0 tq_inf (p_opts s) /\
  0 + IZR (zlen [ch_r 1]) * o_epsDen (p_opts s) <= - o_epsNum (p_opts s) /\ Forall (proper tq_eps 0 tq_inf 2 1 (p_opts s)) ([ch_r 1] ++ [ch_r 2]).
Proof.
  destruct C69_ex as (s0 & s1 & s & d & p & RD & E0 & EX & SD & FA & _ & _ & NR & ED & _ & TT & El & Eu & ET & EO).
  exists s0, s1, s. do 5 (split; [assumption|]). assert (C2 : forall i, (0 <= i < 2)%Z -> i = 0%Z \/ i = 1%Z) by lia.
  assert (TI : 2 < tq_inf) by (unfold tq_inf; lra).
  split; [|split; [|split; [|split]]].
  - intros i Hi. unfold lB, uB. rewrite El, Eu. destruct (C2 i Hi) as [-> | ->]; change (- tq_inf < -1 /\ 1 < tq_inf); lra.
  - intros i Hi. unfold tyB. rewrite ET. destruct (C2 i Hi) as [-> | ->]; discriminate.
  - split; [exact NR|]. split; [exact ED|exact TT].
  - rewrite EO. change (0 + 1 * (Rlit 1 3 * tq_eps) <= - (- Rlit 1 3 * tq_eps)). lra.
  - assert (PR : forall g, proper tq_eps 0 tq_inf 2 1 (p_opts s) (ch_r g)).
    { intros g. split; [repeat split; cbn; unfold zlen; cbn; lia|]. intros i Hi. cbv zeta. rewrite EO.
      assert (V : zn 0 (r_lb (ch_r g)) i = -1 /\ zn 0 (r_ub (ch_r g)) i = 1) by (destruct (C2 i Hi) as [-> | ->]; split; reflexivity). destruct V as (-> & ->).
      change (o_terminationTolerance (optDefault (N := tqN))) with (Rlit 5 6 * tq_eps). change (o_boundTolerance (optDefault (N := tqN))) with (Rlit 1 6 * tq_eps).
      change (Rlit 5 6) with (IZR (5 * 10 ^ 6)). change (Rlit 1 6) with (IZR (1 * 10 ^ 6)). change (5 * 10 ^ 6)%Z with 5000000%Z. change (1 * 10 ^ 6)%Z with 1000000%Z.
      rewrite (Rabs_left (-1)), (Rabs_right 1) by lra. replace (- -1) with 1 by ring. rewrite Rmax_left by lra. unfold tq_eps in *. lra. }
    constructor; [apply PR|constructor; [apply PR|constructor]].
Qed.
