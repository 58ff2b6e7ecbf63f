(** Properties C39 and C40: the factor of the free block of the Hessian under
    working-set changes.  Exact arithmetic, any constants EPS and ZERO >= 0. *)
From Coq Require Import Relations.
From Verif Require Import Base Types Num Options Indexlist IndexlistProofs Loops RSum LinSpec SafeLib SubjectTo SubjectToProofs SubjectToProofs2
  Flipper PropFlipper Matrices MatLib MatSafe PropDense LinAlg PropLinAlg QProblemB QPBSafe QPBSafe2 QPBEx QPBX1 QPBX2 QPBX3 QPBX4.
Local Open Scope R_scope.

Section C39.
Variables eps zero infty : R.
Notation N := (RNumT eps zero infty).
Notation arr := (list R).
Hypothesis zero_nn : 0 <= zero.
Variable junk : Z -> arr.
Hypothesis J : junk_ok (N := N) junk.

(** variable i is free, or at one of its bounds *)
Definition is_free (s : qpb N) (i : Z) : Prop := (0 <= i < st_n (q_bounds s))%Z /\ zs (st_status (q_bounds s)) i = ST_INACTIVE.
Definition is_fixed (s : qpb N) (i : Z) : Prop := (0 <= i < st_n (q_bounds s))%Z /\ is_active (zs (st_status (q_bounds s)) i) = true.

(** one successful change of the working set *)
Definition change (s s' : qpb N) : Prop :=
  (exists i v, is_free s i /\ is_active v = true /\ addBound i v true s = Ok (SUCCESSFUL_RETURN, s')) \/
  (exists i, is_fixed s i /\ removeBound (N := N) junk i true s = Ok (SUCCESSFUL_RETURN, s')).

(** The factor of s: R is upper triangular with nonzero diagonal on the free
    block and R'R is the Hessian at the free variables, in the order of the
    free list. *)
Definition exact_factor (n : Z) (s : qpb N) (Hm : Z -> Z -> R) : Prop :=
  forall l, il_rep (st_ina (q_bounds s)) l ->
    (forall i j, (0 <= i < zlen l)%Z -> (0 <= j < zlen l)%Z ->
       rsum 0 (zlen l) (fun k => (if (k <=? i)%Z then zn 0 (q_R s) (k + n * i) else 0) * (if (k <=? j)%Z then zn 0 (q_R s) (k + n * j) else 0))
       = Hm (zz l i) (zz l j)) /\
    (forall i, (0 <= i < zlen l)%Z -> zn 0 (q_R s) (i + n * i) <> 0).

(** the object can be updated: solver status, Hessian data, options *)
Definition updatable (n : Z) (s : qpb N) (Hm : Z -> Z -> R) : Prop :=
  (exists l0 l1, qwf n s l0 l1 /\ cholesky eps zero infty n s l0 Hm) /\ noUpdate s = false /\ q_status s <> QPS_PREPARINGAUXILIARYQP /\
  hess eps zero infty n s Hm /\ 0 <= o_epsFlipping (q_opts s).

Lemma rep_unique s l l' : il_rep s l -> il_rep s l' -> l = l'.
Proof.
  intros A B. pose proof (rep_len _ _ A) as LA. pose proof (rep_len _ _ B) as LB. apply (list_ext_zn 0%Z); [lia|].
  intros i Hi. rewrite <- (rep_val _ _ A i) by lia. rewrite <- (rep_val _ _ B i) by lia. reflexivity.
Qed.

Lemma updatable_exact n s Hm : updatable n s Hm -> exact_factor n s Hm.
Proof.
  intros ((l0 & l1 & W & C) & _) l Rp. assert (l = l0) by (apply (rep_unique (st_ina (q_bounds s))); [exact Rp|apply (w_rep0 _ _ _ _ W)]). subst l.
  destruct (cholesky_factor eps zero infty n s l0 l1 Hm W C) as [G D]. split; [exact G|exact D].
Qed.
(** an object whose factor is exact can be updated (Hessians given by a matrix) *)
Lemma exact_updatable n s l0 l1 Hm : qwf n s l0 l1 -> plainH s = true -> exact_factor n s Hm -> noUpdate s = false -> q_status s <> QPS_PREPARINGAUXILIARYQP ->
  hess eps zero infty n s Hm -> 0 <= o_epsFlipping (q_opts s) -> updatable n s Hm.
Proof.
  intros W P E NU NP HE EF. destruct (E l0 (w_rep0 _ _ _ _ W)) as [G D]. split; [|auto]. exists l0, l1. split; [exact W|].
  unfold cholesky. rewrite P. split; [exact G|exact D].
Qed.

Lemma hess_frame n (s s' : qpb N) Hm : hess eps zero infty n s Hm -> q_H s' = q_H s -> hframe (q_htype s) (q_htype s') -> q_regVal s' = q_regVal s ->
  hess eps zero infty n s' Hm.
Proof.
  unfold hess, usingReg. intros H EH HF ER. rewrite EH, ER. destruct HF as [->|(P & ->)]; [exact H|]. destruct (q_htype s); try discriminate P; exact H.
Qed.
Lemma cholesky_frame n (s s' : qpb N) l0 Hm : cholesky eps zero infty n s l0 Hm -> q_R s' = q_R s -> hframe (q_htype s) (q_htype s') -> q_regVal s' = q_regVal s ->
  cholesky eps zero infty n s' l0 Hm.
Proof.
  unfold cholesky, usingReg, plainH. intros H EH HF ER. rewrite EH, ER. destruct HF as [->|(P & ->)]; [exact H|]. destruct (q_htype s); try discriminate P; exact H.
Qed.
(** strict convexity excludes a zero Hessian that is not regularised *)
Lemma strong_zero n s Hm lam : (0 < n)%Z -> 0 < lam -> strong n Hm lam -> hess eps zero infty n s Hm -> q_htype s = HST_ZERO -> usingReg s = true.
Proof.
  intros Hn L S HE HT. unfold hess in HE. rewrite HT in HE. destruct (usingReg s); [reflexivity|]. exfalso.
  assert (P : 0 < quad n Hm (fun _ => 1)) by (apply (strong_pd n Hm lam); auto; exists 0%Z; split; [lia|lra]).
  unfold quad in P. rewrite rsum_0 in P; [lra|]. intros i _. apply rsum_0. intros j _. rewrite HE. ring.
Qed.
Lemma hess_hk n s Hm : hess eps zero infty n s Hm -> hk s.
Proof. intros HE P. destruct (hess_plain eps zero infty n s Hm HE P) as (M & E & _). now rewrite E. Qed.

(** *** C39 *)
(** Adding a bound: the call succeeds and the factor stays exact. *)
Theorem C39_addBound n (s : qpb N) Hm lam i v : updatable n s Hm -> strong n Hm lam -> zero * zero < lam -> is_free s i -> is_active v = true ->
  exists s', addBound i v true s = Ok (SUCCESSFUL_RETURN, s') /\ updatable n s' Hm /\ exact_factor n s' Hm /\ is_fixed s' i /\
    (forall j, j <> i -> (0 <= j < n)%Z -> zs (st_status (q_bounds s')) j = zs (st_status (q_bounds s)) j).
Proof.
  intros ((l0 & l1 & W & C) & NU & NP & HE & EF) S L Fi Hv.
  apply (wf_in0 _ _ _ (w_st _ _ _ _ W)) in Fi.
  pose proof (addBound_exact eps zero infty zero_nn n s l0 l1 i v Hm W Fi Hv NU NP C (cholesky_pivots eps zero infty zero_nn n s l0 l1 Hm lam W C S L)) as K.
  destruct (wp_inv _ _ K) as ((r & s') & E & -> & AD & C'). exists s'. split; [exact E|].
  destruct AD as (W' & b & R & -> & Me & SE).
  assert (U : updatable n (set_q_bounds b (set_q_R R s)) Hm).
  { split; [exists (spec_remove l0 i), (l1 ++ [i]); auto|]. split; [exact NU|]. split; [exact NP|]. split; [|exact EF].
    apply (hess_frame n s); auto. now left. }
  pose proof (w_in0 _ _ _ _ W i Fi) as Ri.
  split; [exact U|]. split; [now apply updatable_exact|]. cbn [q_bounds set_q_bounds]. split.
  - split; cbn [q_bounds set_q_bounds]; [destruct Me as (-> & _); rewrite (w_nV _ _ _ _ W); exact Ri|].
    rewrite SE, (zs_upd' n s l0 l1) by auto. now rewrite Z.eqb_refl.
  - intros j Nj Hj. rewrite SE, (zs_upd' n s l0 l1) by auto. now destruct (Z.eqb_spec j i).
Qed.

(** Removing a bound: if the call succeeds the factor stays exact. *)
Theorem C39_removeBound n (s : qpb N) Hm lam i : updatable n s Hm -> symm_on n Hm -> strong n Hm lam -> zero * zero < lam -> is_fixed s i ->
  exists r s', removeBound (N := N) junk i true s = Ok (r, s') /\ (r = SUCCESSFUL_RETURN -> updatable n s' Hm /\ exact_factor n s' Hm).
Proof.
  intros ((l0 & l1 & W & C) & NU & NP & HE & EF) SY S L Fi.
  apply (wf_in1 _ _ _ (w_st _ _ _ _ W)) in Fi. pose proof (hess_hk n s Hm HE) as K.
  pose proof (removeBound_exact eps zero infty zero_nn junk J n s l0 l1 i Hm W K Fi NU NP HE SY C EF) as X.
  destruct (wp_inv _ _ X) as ((r & s') & E & Post). exists r, s'. split; [exact E|]. intros ->.
  assert (Rm : removed n s s' l0 l1 i -> cholesky eps zero infty n s' (l0 ++ [i]) Hm -> updatable n s' Hm).
  { intros (W' & b & R & f & -> & Me & SE) C'. split; [eauto|]. split; [exact NU|]. split; [exact NP|]. split; [|exact EF].
    apply (hess_frame n s); auto. now left. }
  assert (Fl : flippedx n s s' l0 l1 i -> updatable n s' Hm).
  { intros (W' & b & f & h & lb & ub & -> & HF & _). split; [|split; [exact NU|]; split; [exact NP|]; split; [|exact EF]; apply (hess_frame n s); auto].
    exists l0, l1. split; [exact W'|]. apply (cholesky_frame n s); auto. }
  assert (U : updatable n s' Hm); [|split; [exact U|now apply updatable_exact]].
  destruct (plainH s) eqn:P.
  - destruct Post as [(Bad & _)|(r0 & CV & Post)]; [discriminate Bad|].
    destruct (Rltb _ r0); [destruct Post as (_ & A & B); auto|].
    destruct (o_enableFlippingBounds _); [destruct Post as (_ & A & _); auto|discriminate Post].
  - destruct Post as (_ & Post). destruct (_ && _); [destruct Post as (A & _); auto|]. destruct Post as (A & B). apply Rm; [exact A|]. apply B.
    intros HT. apply (strong_zero n s Hm lam); auto; [apply W|nra].
Qed.

(** Every sequence of successful changes keeps the factor exact. *)
Theorem C39_sequences n (s s' : qpb N) Hm lam : updatable n s Hm -> symm_on n Hm -> strong n Hm lam -> zero * zero < lam ->
  clos_refl_trans _ change s s' -> exact_factor n s' Hm.
Proof.
  intros U SY S L RT. apply updatable_exact. apply clos_rt_rt1n in RT. revert U. induction RT as [s|s s1 s2 Ch _ IH]; [auto|]. intros U. apply IH.
  destruct Ch as [(i & v & Fi & Hv & E)|(i & Fi & E)].
  - destruct (C39_addBound n s Hm lam i v U S L Fi Hv) as (s1' & E' & U' & _). congruence.
  - destruct (C39_removeBound n s Hm lam i U SY S L Fi) as (r & s1' & E' & K). rewrite E in E'. injection E' as <- <-. now apply K.
Qed.

(** *** C40 *)
(** When a fixed variable is to be freed, let r0 be the smallest curvature of
    the Hessian over the directions that move it by one and keep the other fixed
    variables.  If r0 is at most epsFlipping the bound is flipped, the rest of the
    working set, the lists and the factor are those of before; otherwise the
    variable becomes free.  (RET_REMOVEBOUND_FAILED is only possible if ZERO > 0.) *)
Theorem C40_curvature n (s : qpb N) Hm i l0 : updatable n s Hm -> symm_on n Hm -> is_fixed s i -> plainH s = true -> il_rep (st_ina (q_bounds s)) l0 ->
  o_enableFlippingBounds (q_opts s) = true ->
  exists r s', removeBound (N := N) junk i true s = Ok (r, s') /\
    (r = RET_REMOVEBOUND_FAILED /\ 0 < zero \/
     r = SUCCESSFUL_RETURN /\ exists r0, curvature (zlen l0) (sub (l0 ++ [i]) Hm) r0 /\
       (r0 <= o_epsFlipping (q_opts s) ->
          q_R s' = q_R s /\ st_ina (q_bounds s') = st_ina (q_bounds s) /\ st_act (q_bounds s') = st_act (q_bounds s) /\
          (forall j, (0 <= j < n)%Z -> zs (st_status (q_bounds s')) j = if (j =? i)%Z then flip (zs (st_status (q_bounds s)) i) else zs (st_status (q_bounds s)) j) /\
          exact_factor n s' Hm) /\
       (o_epsFlipping (q_opts s) < r0 ->
          (forall j, (0 <= j < n)%Z -> zs (st_status (q_bounds s')) j = if (j =? i)%Z then ST_INACTIVE else zs (st_status (q_bounds s)) j) /\
          exact_factor n s' Hm)).
Proof.
  intros ((l & l1 & W & C) & NU & NP & HE & EF) SY Fi P Rp FB.
  assert (l = l0) by (apply (rep_unique (st_ina (q_bounds s))); [apply (w_rep0 _ _ _ _ W)|exact Rp]). subst l.
  apply (wf_in1 _ _ _ (w_st _ _ _ _ W)) in Fi. pose proof (hess_hk n s Hm HE) as K. pose proof (w_in1 _ _ _ _ W i Fi) as Ri.
  pose proof (removeBound_exact eps zero infty zero_nn junk J n s l0 l1 i Hm W K Fi NU NP HE SY C EF) as X.
  destruct (wp_inv _ _ X) as ((r & s') & E & Post). exists r, s'. split; [exact E|]. rewrite P in Post.
  destruct Post as [Bad|(r0 & CV & Post)]; [now left|]. right. rewrite FB in Post.
  destruct (Rltb_spec (o_epsFlipping (q_opts s)) r0) as [Lt|Ge].
  - destruct Post as (-> & (W' & b & R & f & -> & Me & SE) & C'). split; [reflexivity|]. exists r0. split; [exact CV|]. split; [intros; lra|]. intros _. split.
    + intros j Hj. cbn [q_bounds set_q_bounds]. rewrite SE, (zs_upd' n s l0 l1) by auto. reflexivity.
    + apply updatable_exact. split; [eauto|]. split; [exact NU|]. split; [exact NP|]. split; [|exact EF]. apply (hess_frame n s); auto. now left.
  - destruct Post as (-> & (W' & b & f & h & lb & ub & -> & HF & Me & SE & EI & EA & EB) & _). split; [reflexivity|]. exists r0. split; [exact CV|]. split; [|intros; lra]. intros _.
    split; [reflexivity|]. split; [exact EI|]. split; [exact EA|]. split.
    + intros j Hj. cbn [q_bounds set_q_bounds set_q_lb set_q_ub set_q_htype set_q_flip]. rewrite SE, (zs_upd' n s l0 l1) by auto. reflexivity.
    + apply updatable_exact. split; [exists l0, l1; split; [exact W'|]; apply (cholesky_frame n s); auto|]. split; [exact NU|]. split; [exact NP|]. split; [|exact EF]. apply (hess_frame n s); auto.
Qed.
End C39.

(** C40 in any arithmetic: if removeBound succeeds and the variable is still at
    a bound, the object differs from the old one only in that bound: it is on the
    other side, with the value of the old one. *)
Theorem C40_flip {N : Num} (junk : Z -> list N) n (s : qpb N) l0 l1 i upd s' : junk_ok junk -> qwf n s l0 l1 -> hk s -> In i l1 -> noUpdate s = false ->
  removeBound junk i upd s = Ok (SUCCESSFUL_RETURN, s') -> zs (st_status (q_bounds s')) i <> ST_INACTIVE ->
  q_R s' = q_R s /\ st_ina (q_bounds s') = st_ina (q_bounds s) /\ st_act (q_bounds s') = st_act (q_bounds s) /\
  st_status (q_bounds s') = zupd (st_status (q_bounds s)) i (match zs (st_status (q_bounds s)) i with ST_LOWER => ST_UPPER | _ => ST_LOWER end) /\
  q_g s' = q_g s /\ q_x s' = q_x s /\ q_y s' = q_y s /\
  match zs (st_status (q_bounds s)) i with
  | ST_LOWER => q_lb s' = q_lb s /\ q_ub s' = zupd (q_ub s) i (zn n0 (q_lb s) i)
  | _ => q_ub s' = q_ub s /\ q_lb s' = zupd (q_lb s) i (zn n0 (q_ub s) i)
  end.
Proof.
  intros J W K Hi NU E NI. pose proof (removeBound_cases junk J n s l0 l1 i upd W K Hi NU) as X. rewrite E in X. cbn [wp] in X.
  pose proof (w_in1 _ _ _ _ W i Hi) as Ri.
  pose proof (proj1 (wf_in1 _ _ _ (w_st _ _ _ _ W) i) Hi) as (_ & Ai). pose proof (w_good _ _ _ _ W i Ri) as GS.
  destruct (X eq_refl) as [(W' & b & R & f & -> & Me & SE)|(NP & W' & b & f & h & lb & ub & -> & HF & Me & SE & EI & EA & EB)].
  - exfalso. apply NI. cbn [q_bounds set_q_bounds]. rewrite SE, (zs_upd' n s l0 l1) by auto. now rewrite Z.eqb_refl.
  - split; [reflexivity|]. split; [exact EI|]. split; [exact EA|]. destruct (zs (st_status (q_bounds s)) i) eqn:Es; try discriminate Ai; cbn in SE, EB |- *; injection EB as -> ->; auto 8.
    all: destruct GS as [Q|[Q|Q]]; discriminate Q.
Qed.

(** *** The hypotheses can be met *)
Definition ex_N := RNumT (1/1000) (1/1000000) 1000.
Definition ex_s : qpb ex_N := set_q_status QPS_PERFORMINGHOMOTOPY (ex_qp (N := ex_N) optDefault).
Definition ex_Hm : Z -> Z -> R := dmat (ex_H (N := ex_N)).
Lemma ex_Hm_eq : ex_Hm 0 0 = 4 /\ ex_Hm 0 1 = 1 /\ ex_Hm 1 0 = 1 /\ ex_Hm 1 1 = 2.
Proof.
  change (ex_Hm 0 0) with 4. change (ex_Hm 0 1) with 1. change (ex_Hm 1 0) with 1. change (ex_Hm 1 1) with 2. auto.
Qed.
Lemma ex_symm : symm_on 2 ex_Hm.
Proof.
  destruct ex_Hm_eq as (A & B & C & D). intros i j Hi Hj. assert (i = 0 \/ i = 1)%Z as [-> | ->] by lia; assert (j = 0 \/ j = 1)%Z as [-> | ->] by lia; lra.
Qed.
Lemma rsum2 f : rsum 0 2 f = f 0%Z + f 1%Z.
Proof. change 2%Z with (1 + 1)%Z. rewrite rsum_last by lia. change 1%Z with (0 + 1)%Z at 1. rewrite rsum_last by lia. rewrite rsum_empty by lia. ring. Qed.
Lemma ex_strong : strong 2 ex_Hm 1.
Proof.
  destruct ex_Hm_eq as (A & B & C & D). intros x. unfold quad. rewrite !rsum2, A, B, C, D. pose proof (Rle_0_sqr (x 0%Z + x 1%Z)) as P. unfold Rsqr in P. nra.
Qed.
Lemma ex_updatable : updatable (1/1000) (1/1000000) 1000 2 ex_s ex_Hm.
Proof.
  apply (exact_updatable _ _ _ 2 ex_s [0%Z] [1%Z]); try reflexivity; try discriminate.
  - pose proof (ex_wf (N := ex_N) optDefault) as []. constructor; auto.
  - intros l Rp. assert (l = [0%Z]) by (apply (rep_unique (st_ina ex_st)); [exact Rp|exact (wf_ina _ _ _ ex_st_wf)]). subst l.
    change (zlen [0%Z]) with 1%Z. destruct ex_Hm_eq as (A & _).
    split; intros i; [intros j Hi Hj|intros Hi]; assert (i = 0%Z) by lia; subst i; [assert (j = 0%Z) by lia; subst j|].
    + change (zz [0%Z] 0) with 0%Z. rewrite A. change 1%Z with (0 + 1)%Z. rewrite rsum_last by lia. rewrite rsum_empty by lia.
      change (if (0 <=? 0)%Z then zn 0 (q_R ex_s) (0 + 2 * 0) else 0) with 2. lra.
    + change (zn 0 (q_R ex_s) (0 + 2 * 0)) with 2. lra.
  - exists (SDense (N := ex_N) ex_H). split; [reflexivity|]. apply dense_mat_ok; try lra; try lia; try reflexivity.
    repeat split; cbn; unfold zlen; cbn; lia.
  - change (o_epsFlipping (q_opts ex_s)) with (Rlit 1 3 * (1/1000)). change (Rlit 1 3) with 1000. lra.
Qed.
Example C39_ex : updatable (1/1000) (1/1000000) 1000 2 ex_s ex_Hm /\ symm_on 2 ex_Hm /\ strong 2 ex_Hm 1 /\ 1/1000000 * (1/1000000) < 1 /\
  is_free _ _ _ ex_s 0 /\ is_fixed _ _ _ ex_s 1.
Proof. split; [apply ex_updatable|]. split; [apply ex_symm|]. split; [apply ex_strong|]. split; [lra|]. split; split; try reflexivity; cbn; lia. Qed.
(** freeing variable 1 of the example succeeds and gives the factor of H *)
Example C39_removeBound_ex : forall junk : Z -> list R, junk_ok (N := ex_N) junk -> exists r s',
  removeBound (N := ex_N) junk 1 true ex_s = Ok (r, s') /\ (r = SUCCESSFUL_RETURN -> exact_factor _ _ _ 2 s' ex_Hm).
Proof.
  intros junk J. destruct (C39_removeBound (1/1000) (1/1000000) 1000 ltac:(lra) junk J 2 ex_s ex_Hm 1 1) as (r & s' & E & P); try apply C39_ex.
  exists r, s'. split; [exact E|]. intros Hr. now apply P.
Qed.

Print Assumptions C39_addBound.
Print Assumptions C39_removeBound.
Print Assumptions C39_sequences.
Print Assumptions C40_curvature.
Print Assumptions C40_flip.
