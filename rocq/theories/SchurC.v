(** Sign of the determinant, solution of systems with S, and the predicted determinant. *)
From Verif Require Import Base Types Num RSum LinSpec LinAlg PropLinAlg QPX7 Schur Det SchurF SchurA SchurB SchurS SchurU.
Local Open Scope R_scope.

(** *** bordering a nonsingular symmetric matrix *)
Lemma det_addrows n t (x : Z -> R) f : (t <= n)%nat ->
  det (S n) (setrow (Z.of_nat n) (fun j => f (Z.of_nat n) j - rsum 0 (Z.of_nat t) (fun k => x k * f k j)) f) = det (S n) f.
Proof.
  induction t as [|t IH]; intros Ht.
  - transitivity (det (S n) (setrow (Z.of_nat n) (f (Z.of_nat n)) f)); [|apply setrow_id]. apply det_ext. intros i j Hi Hj. unfold setrow. destruct (i =? Z.of_nat n)%Z; [|reflexivity]. rewrite rsum_empty by lia. ring.
  - rewrite <- (IH ltac:(lia)).
    transitivity (det (S n) (setrow (Z.of_nat n) (fun j => 1 * (f (Z.of_nat n) j - rsum 0 (Z.of_nat t) (fun k => x k * f k j)) + (- x (Z.of_nat t)) * f (Z.of_nat t) j) f)).
    + apply det_ext. intros i j Hi Hj. unfold setrow. destruct (i =? Z.of_nat n)%Z; [|reflexivity]. rewrite Nat2Z.inj_succ. unfold Z.succ. rewrite rsum_last by lia. ring.
    + rewrite det_lin by lia. rewrite (det_alt' (S n) (setrow (Z.of_nat n) (f (Z.of_nat t)) f) (Z.of_nat t) (Z.of_nat n)); try lia; [ring|].
      intros k. unfold setrow. rewrite Z.eqb_refl. destruct (Z.eqb_spec (Z.of_nat t) (Z.of_nat n)); [lia|reflexivity].
Qed.
Lemma det_bordered n f (x : Z -> R) : (0 <= n)%Z -> (forall j, (0 <= j < n)%Z -> rsum 0 n (fun k => x k * f k j) = f n j) ->
  det (nat_n (n + 1)) f = (f n n - rsum 0 n (fun k => x k * f k n)) * det (nat_n n) f.
Proof.
  intros Hn E. replace (nat_n (n + 1)) with (S (nat_n n)) by lia. rewrite <- (det_addrows (nat_n n) (nat_n n) x f) by lia. rewrite Z2Nat.id by lia.
  rewrite det_lastrow.
  - rewrite Z2Nat.id by lia. unfold setrow at 1. rewrite Z.eqb_refl. f_equal. apply det_ext. intros i j Hi Hj. unfold setrow. destruct (Z.eqb_spec i n); [lia|reflexivity].
  - intros j Hj. rewrite Z2Nat.id in * by lia. unfold setrow. rewrite Z.eqb_refl, E by lia. ring.
Qed.
Lemma diagprod_ext n f g : (forall i, (0 <= i < Z.of_nat n)%Z -> f i i = g i i) -> diagprod n f = diagprod n g.
Proof. induction n as [|n IH]; intros E; [reflexivity|]. cbn [diagprod]. rewrite E by lia. f_equal. apply IH. intros i Hi. apply E; lia. Qed.
Lemma diagprod_nz n f : diagprod n f <> 0 <-> forall i, (0 <= i < Z.of_nat n)%Z -> f i i <> 0.
Proof.
  induction n as [|n IH]; cbn [diagprod].
  - split; [intros _ i Hi; lia|intros _; lra].
  - split.
    + intros H i Hi. destruct (Z.eq_dec i (Z.of_nat n)) as [->|]; [intros Z; apply H; rewrite Z; ring|]. apply IH; [intros Z; apply H; rewrite Z; ring|lia].
    + intros H. apply Rmult_integral_contrapositive_currified; [apply H; lia|]. apply IH. intros i Hi. apply H; lia.
Qed.

Lemma diagprod_z n f : diagprod n f = 0 -> exists i, (0 <= i < Z.of_nat n)%Z /\ f i i = 0.
Proof.
  induction n as [|n IH]; cbn [diagprod]; [lra|].
  intros E. apply Rmult_integral in E as [E|E]; [exists (Z.of_nat n); split; [lia|exact E]|]. destruct (IH E) as (i & Hi & Ei). exists i. split; [lia|exact Ei].
Qed.
Definition qtrhs {N : Num} (m n : Z) (Q rhs sol : list N) : res (list N) :=
  sol <- for_up 0 n (fun i sol => wr sol i n0) sol ;;
  for_up 0 n (fun i sol => for_up 0 n (fun j sol =>
    x <- rd sol i ;; q <- rd Q (j + i * m) ;; r <- rd rhs j ;; wr sol i (x +' q *' r)) sol) sol.
Local Ltac lits := rnum.
Section C.
Variables eps zero infty : R.
Notation N := (RNumT eps zero infty).
Notation arr := (list R).
Hypothesis zero_0 : zero = 0.

(** sign of a determinant; either sign is allowed for 0 *)
Definition sign_of (d x : R) : Prop := (d = 1 \/ d = -1) /\ d * x = Rabs x.
Lemma det_sign_ok m n (R : arr) f : (0 <= n)%Z -> (forall i, (0 <= i < n)%Z -> rd R (i + i * m) = Ok (f i i)) ->
  wp (det_sign (N := N) m n R) (fun d => sign_of d (diagprod (nat_n n) f)).
Proof.
  intros Hn H. unfold det_sign.
  apply wp_for_up with (I := fun k (d : Rdefinitions.R) => sign_of d (diagprod (nat_n k) f)); [lia| | |].
  - change (diagprod (nat_n 0) f) with 1. split; [left; reflexivity|]. change (1 * 1 = Rabs 1). rewrite Rabs_R1. ring.
  - intros k d Hk [D E]. rcar. rewrite H by lia. cbn [bind]. apply wp_ok. rnum. replace (nat_n (k + 1)) with (S (nat_n k)) by lia. cbn [diagprod]. rewrite Z2Nat.id by lia. rewrite (Rmult_comm (f k k)).
    unfold Rltb. destruct (Rlt_dec (f k k) _) as [L|L]; lits; split; try (destruct D; lra); rewrite Rabs_mult, <- E.
    + rewrite (Rabs_left (f k k)) by (revert L; lits; lra). ring.
    + rewrite (Rabs_right (f k k)) by (revert L; lits; lra). ring.
  - intros d H'. exact H'.
Qed.

(** *** triangular system *)
Lemma trtrs_ok m n (R b : arr) f : (0 <= n)%Z -> (forall i j, (0 <= i <= j)%Z -> (j < n)%Z -> rd R (i + j * m) = Ok (f i j)) -> zlen b = n ->
  wp (trtrs (N := N) m n R b) (fun r => zlen (snd r) = n /\
     ((forall i, (0 <= i < n)%Z -> f i i <> 0) -> fst r = true /\ forall i, (0 <= i < n)%Z -> rsum i n (fun j => f i j * zn 0 (snd r) j) = zn 0 b i) /\
     ((exists i, (0 <= i < n)%Z /\ f i i = 0) -> r = (false, b))).
Proof.
  intros Hn H Lb. unfold trtrs. apply wp_bind.
  apply wp_for_up with (I := fun k (z : bool) => z = true <-> exists i, (0 <= i < k)%Z /\ f i i = 0); [lia| | |].
  { split; [discriminate|]. intros (i & Hi & _). lia. }
  { intros k z Hk I. rcar. rewrite H by lia. cbn [bind]. apply wp_ok. rnum. unfold Reqb. rewrite orb_true_iff, I. split.
    - intros [(i & Hi & E)|E]; [exists i; split; [lia|exact E]|]. destruct (Req_EM_T (f k k) _) as [E1|E1]; [|discriminate]. exists k. split; [lia|]. revert E1. now lits.
    - intros (i & Hi & E). destruct (Z.eq_dec i k) as [->|]; [|left; exists i; split; [lia|exact E]]. right. destruct (Req_EM_T (f k k) _) as [E1|E1]; [reflexivity|]. exfalso. revert E1. lits. congruence. }
  intros z Hz. destruct z.
  { apply wp_ok. cbn [fst snd]. split; [exact Lb|]. split; [|reflexivity]. intros NZ. destruct Hz as [Hz _]. destruct (Hz eq_refl) as (i & Hi & E). elim (NZ i Hi E). }
  assert (NZ : forall i, (0 <= i < n)%Z -> f i i <> 0). { intros i Hi E. destruct Hz as [_ Hz]. discriminate Hz. now exists i. }
  apply wp_bind.
  apply wp_for_dn with (I := fun k (c : arr) => zlen c = n /\ forall i, (0 <= i < n)%Z -> rsum (Z.max i (k + 1)) n (fun j => f i j * zn 0 c j) + (if (i <=? k)%Z then zn 0 c i else 0) = zn 0 b i); [lia| | |].
  - split; [exact Lb|]. intros i Hi. rewrite rsum_empty by lia. destruct (Z.leb_spec i (n - 1)); [|lia]. ring.
  - intros k c Hk (Lc & I). rcar. rewrite (rd_ok 0) by lia. cbn [bind]. rewrite H by lia. cbn [bind]. rewrite wr_ok by lia. cbn [bind]. rnum.
    set (y := zn 0 c k / f k k).
    apply wp_for_up with (I := fun l (e : arr) => zlen e = n /\ forall i, (0 <= i < n)%Z -> zn 0 e i = if (i =? k)%Z then y else if (i <? l)%Z then zn 0 c i - y * f i k else zn 0 c i); [lia| | |].
    + rewrite zlen_zupd. split; [exact Lc|]. intros i Hi. rewrite zn_zupd by lia. destruct (i =? k)%Z; [reflexivity|]. destruct (Z.ltb_spec i 0); [lia|reflexivity].
    + intros l e Hl (Le & V). rewrite (rd_ok 0) by lia. cbn [bind]. rewrite (rd_ok 0) by lia. cbn [bind]. rewrite H by lia. cbn [bind]. rewrite wr_ok by lia. apply wp_ok. rnum. rewrite zlen_zupd. split; [exact Le|].
      intros i Hi. rewrite zn_zupd by lia. rewrite !V by lia. rewrite Z.eqb_refl, Z.ltb_irrefl. destruct (Z.eqb_spec l k); [lia|]. destruct (Z.eqb_spec i l) as [->|].
      * destruct (Z.eqb_spec l k); [lia|]. destruct (Z.ltb_spec l (l + 1)); [reflexivity|lia].
      * destruct (i =? k)%Z; [reflexivity|]. destruct (Z.ltb_spec i l), (Z.ltb_spec i (l + 1)); try lia; reflexivity.
    + intros e (Le & V). split; [exact Le|]. intros i Hi. rewrite <- (I i Hi). replace (k - 1 + 1)%Z with k by lia.
      assert (T : rsum (Z.max i (k + 1)) n (fun j => f i j * zn 0 e j) = rsum (Z.max i (k + 1)) n (fun j => f i j * zn 0 c j)).
      { apply rsum_ext. intros j Hj. rewrite V by lia. destruct (Z.eqb_spec j k); [lia|]. destruct (Z.ltb_spec j k); [lia|reflexivity]. }
      destruct (Z.lt_ge_cases k i) as [G|G].
      * replace (Z.max i k) with (Z.max i (k + 1)) by lia. rewrite T. destruct (Z.leb_spec i (k - 1)), (Z.leb_spec i k); try lia. ring.
      * replace (Z.max i k) with k by lia. replace (Z.max i (k + 1)) with (k + 1)%Z in * by lia. rewrite rsum_first by lia. rewrite T. rewrite (V k) by lia. rewrite Z.eqb_refl.
        destruct (Z.leb_spec i k); [|lia]. destruct (Z.leb_spec i (k - 1)).
        -- rewrite V by lia. destruct (Z.eqb_spec i k); [lia|]. destruct (Z.ltb_spec i k); [|lia]. ring.
        -- replace i with k by lia. unfold y. specialize (NZ k ltac:(lia)). field. exact NZ.
  - intros c (Lc & I). apply wp_ok. cbn [fst snd]. split; [exact Lc|]. split.
    + intros _. split; [reflexivity|]. intros i Hi. rewrite <- (I i Hi). destruct (Z.leb_spec i (-1)); [lia|]. replace (Z.max i (-1 + 1)) with i by lia. ring.
    + intros (i & Hi & E). elim (NZ i Hi E).
Qed.

Lemma me_rd_up m n (R : arr) : (n <= m)%Z -> zlen R = (m * m)%Z -> forall i j, (0 <= i <= j)%Z -> (j < n)%Z -> rd R (i + j * m) = Ok (me m R i j).
Proof. intros Hn L i j Hi Hj. apply rd_me; lia. Qed.

(** the vector Q' rhs *)
Lemma qtrhs_ok m n (Q rhs sol : arr) : (0 <= n <= m)%Z -> zlen Q = (m * m)%Z -> zlen rhs = n -> zlen sol = n ->
  wp (qtrhs (N := N) m n Q rhs sol)
    (fun t => zlen t = n /\ forall i, (0 <= i < n)%Z -> zn 0 t i = rsum 0 n (fun k => me m Q k i * zn 0 rhs k)).
Proof.
  intros Hn LQ Lr Ls. unfold qtrhs. apply wp_bind.
  apply wp_for_up with (I := fun k (t : arr) => zlen t = n /\ forall i, (0 <= i < k)%Z -> zn 0 t i = 0); [lia| | |].
  { split; [exact Ls|]. intros; lia. }
  { intros k t Hk (L & V). rcar. rewrite wr_ok by lia. apply wp_ok. rewrite zlen_zupd. split; [exact L|]. intros i Hi. rewrite zn_zupd by lia. destruct (Z.eqb_spec i k); [now lits|]. apply V; lia. }
  intros t (L & V).
  apply wp_for_up with (I := fun k (t : arr) => zlen t = n /\ (forall i, (0 <= i < k)%Z -> zn 0 t i = rsum 0 n (fun k => me m Q k i * zn 0 rhs k)) /\ forall i, (k <= i < n)%Z -> zn 0 t i = 0); [lia| | |].
  { split; [exact L|]. split; [intros; lia|]. intros i Hi. apply V; lia. }
  { intros k t1 Hk (L1 & V1 & V2).
    apply wp_for_up with (I := fun l (t2 : arr) => zlen t2 = n /\ (forall i, (0 <= i < n)%Z -> zn 0 t2 i = if (i =? k)%Z then rsum 0 l (fun r => me m Q r k * zn 0 rhs r) else zn 0 t1 i)); [lia| | |].
    - split; [exact L1|]. intros i Hi. destruct (Z.eqb_spec i k) as [->|]; [|reflexivity]. rewrite rsum_empty by lia. apply V2; lia.
    - intros l t2 Hl (L2 & W). rcar. rewrite (rd_ok 0) by lia. cbn [bind]. rewrite rd_me by lia. cbn [bind]. rewrite (rd_ok 0) by lia. cbn [bind]. rewrite wr_ok by lia. apply wp_ok. rnum. rewrite zlen_zupd. split; [exact L2|].
      intros i Hi. rewrite zn_zupd by lia. rewrite (W k) by lia. rewrite Z.eqb_refl. destruct (Z.eqb_spec i k) as [->|]; [rewrite rsum_last by lia; ring|]. rewrite W by lia. destruct (Z.eqb_spec i k); [lia|reflexivity].
    - intros t2 (L2 & W). split; [exact L2|]. split; intros i Hi; rewrite W by lia.
      + destruct (Z.eqb_spec i k) as [->|]; [reflexivity|]. apply V1; lia.
      + destruct (Z.eqb_spec i k) as [->|]; [lia|]. apply V2; lia. }
  intros t1 (L1 & V1 & _). split; assumption.
Qed.

Theorem backsolve_ok (w : Schur.schur N) n S (rhs sol : arr) : (0 <= n <= sc_max w)%Z -> zlen (sc_Q w : arr) = (sc_max w * sc_max w)%Z -> zlen (sc_R w : arr) = (sc_max w * sc_max w)%Z ->
  qrs n n 1 S (me (sc_max w) (sc_Q w)) (me (sc_max w) (sc_R w)) -> upper n (me (sc_max w) (sc_R w)) -> zlen rhs = n -> zlen sol = n ->
  wp (backsolveSchurQR (N := N) w n rhs 1 sol) (fun r => zlen (snd r) = n /\
    (det (nat_n n) S <> 0 -> fst r = SUCCESSFUL_RETURN /\ forall i, (0 <= i < n)%Z -> rsum 0 n (fun j => S i j * zn 0 (snd r) j) = zn 0 rhs i) /\
    (det (nat_n n) S = 0 -> fst r = RET_QR_FACTORISATION_FAILED)).
Proof.
  intros Hn LQ LR I U Lr Ls. unfold backsolveSchurQR. rewrite orb_false_r. destruct (Z.ltb_spec n 1) as [N0|N1].
  { apply wp_ok. cbn [fst snd]. split; [exact Ls|]. split; [intros _; split; [reflexivity|intros; lia]|]. replace n with 0%Z by lia. change (1 = 0 -> SUCCESSFUL_RETURN = RET_QR_FACTORISATION_FAILED). lra. }
  change (1 >? 1)%Z with false. cbv iota.
  apply wp_assoc. match goal with |- wp (bind ?x _) _ => change x with (qtrhs (N := N) (sc_max w) n (sc_Q w) rhs sol) end. apply wp_bind. eapply wp_mono; [apply (qtrhs_ok (sc_max w) n (sc_Q w) rhs sol); assumption|]. cbv beta. intros t (Lt & Vt).
  apply wp_bind. eapply wp_mono; [apply (trtrs_ok (sc_max w) n (sc_R w) t (me (sc_max w) (sc_R w))); [lia|apply me_rd_up; [lia|assumption]|assumption]|]. cbv beta. intros [ok x] (Lx & Y & F). cbn [fst snd] in *.
  apply wp_ok. cbn [fst snd]. split; [exact Lx|].
  assert (ED : det (nat_n n) S = diagprod (nat_n n) (me (sc_max w) (sc_R w))) by (apply (qrs_detS n S (me (sc_max w) (sc_Q w))); auto; lia).
  rewrite ED. split.
  - intros NZ. destruct Y as [-> Y]. { intros i Hi. apply (proj1 (diagprod_nz (nat_n n) _) NZ). lia. }
    split; [reflexivity|]. intros i Hi.
    rewrite (rsum_ext 0 n _ (fun j => rsum 0 n (fun k => me (sc_max w) (sc_Q w) i k * (me (sc_max w) (sc_R w) k j * zn 0 x j)))).
    2:{ intros j Hj. rewrite <- (q_prod _ _ _ _ _ _ I) by lia. rewrite <- rsum_scal_r. apply rsum_ext. intros k Hk. ring. }
    rewrite rsum_swap. rewrite (rsum_ext 0 n _ (fun k => rsum 0 n (fun l => me (sc_max w) (sc_Q w) i k * (me (sc_max w) (sc_Q w) l k * zn 0 rhs l)))).
    2:{ intros k Hk. rewrite rsum_scal, rsum_scal. f_equal. rewrite <- Vt by lia. rewrite <- (Y k Hk). rewrite (rsum_split 0 k n) by lia. rewrite rsum_0 by (intros j Hj; rewrite U by lia; ring). ring. }
    rewrite rsum_swap. rewrite (rsum_ext 0 n _ (fun l => kd i l * zn 0 rhs l)).
    2:{ intros l Hl. rewrite <- (q_row _ _ _ _ _ _ I) by lia. rewrite <- rsum_scal_r. apply rsum_ext. intros k Hk. ring. }
    rewrite (rsum_delta 0 n i) by (try lia; intros l Hl Nl; rewrite kd_ne by lia; ring). rewrite kd_same. ring.
  - intros Z0. assert (X : exists i, (0 <= i < n)%Z /\ me (sc_max w) (sc_R w) i i = 0).
    { destruct (diagprod_z _ _ Z0) as (i & Hi & Ei). exists i. split; [lia|exact Ei]. }
    specialize (F X). now injection F as -> _.
Qed.
End C.
