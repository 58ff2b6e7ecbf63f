(** Quadratic programs over the reals and their optimality conditions.
    Mathematical specification; follows no file of /repo. *)
From Verif Require Export RSum.
Local Open Scope R_scope.

(** minimise 1/2 x'Hx + g'x  subject to  lb <= x <= ub, lbA <= Ax <= ubA.
    Vectors are functions on indices; absent bounds are [None]. *)
Record qp := mkQp {
  q_nV : Z; q_nC : Z;
  q_H : Z -> Z -> R; q_g : Z -> R; q_A : Z -> Z -> R;
  q_lb : Z -> option R; q_ub : Z -> option R; q_lbA : Z -> option R; q_ubA : Z -> option R
}.

Definition within (l u : option R) (v : R) : Prop :=
  (forall b, l = Some b -> b <= v) /\ (forall b, u = Some b -> v <= b).

Section Qp.
Variable q : qp.
Definition Hx (x : Z -> R) (i : Z) : R := rsum 0 (q_nV q) (fun j => q_H q i j * x j).
Definition Ax (x : Z -> R) (i : Z) : R := rsum 0 (q_nV q) (fun j => q_A q i j * x j).
Definition objective (x : Z -> R) : R :=
  / 2 * rsum 0 (q_nV q) (fun i => x i * Hx x i) + rsum 0 (q_nV q) (fun i => q_g q i * x i).
Definition feasible (x : Z -> R) : Prop :=
  (forall i, (0 <= i < q_nV q)%Z -> within (q_lb q i) (q_ub q i) (x i)) /\
  (forall i, (0 <= i < q_nC q)%Z -> within (q_lbA q i) (q_ubA q i) (Ax x i)).
Definition minimiser (x : Z -> R) : Prop :=
  feasible x /\ forall z, feasible z -> objective x <= objective z.
Definition symmetric : Prop := forall i j, (0 <= i < q_nV q)%Z -> (0 <= j < q_nV q)%Z -> q_H q i j = q_H q j i.
Definition psd : Prop := forall v, 0 <= rsum 0 (q_nV q) (fun i => v i * Hx v i).
(** Positive definite: only the zero vector has zero curvature. *)
Definition pd : Prop := forall v, (exists i, (0 <= i < q_nV q)%Z /\ v i <> 0) -> 0 < rsum 0 (q_nV q) (fun i => v i * Hx v i).

(** Residual of the stationarity condition. *)
Definition stationarity (x y yA : Z -> R) (i : Z) : R :=
  q_g q i - y i + Hx x i - rsum 0 (q_nC q) (fun j => q_A q j i * yA j).

(** Multiplier [y] of the constraint l <= v <= u: sign and complementarity. *)
Definition complementary (l u : option R) (v y : R) : Prop :=
  (0 < y -> l = Some v) /\ (y < 0 -> u = Some v).

(** Karush-Kuhn-Tucker conditions. *)
Definition kkt (x y yA : Z -> R) : Prop :=
  feasible x /\
  (forall i, (0 <= i < q_nV q)%Z -> stationarity x y yA i = 0) /\
  (forall i, (0 <= i < q_nV q)%Z -> complementary (q_lb q i) (q_ub q i) (x i) (y i)) /\
  (forall i, (0 <= i < q_nC q)%Z -> complementary (q_lbA q i) (q_ubA q i) (Ax x i) (yA i)).

Lemma Hx_minus z x i : Hx (fun j => z j - x j) i = Hx z i - Hx x i.
Proof. unfold Hx, rsum. rewrite <- lsum_minus. apply lsum_ext. intros. ring. Qed.

Lemma Hx_plus z x i : Hx (fun j => z j + x j) i = Hx z i + Hx x i.
Proof. unfold Hx, rsum. rewrite <- lsum_plus. apply lsum_ext. intros. ring. Qed.

Lemma Ax_minus z x i : Ax (fun j => z j - x j) i = Ax z i - Ax x i.
Proof. unfold Ax, rsum. rewrite <- lsum_minus. apply lsum_ext. intros. ring. Qed.

Lemma Hx_sym : symmetric -> forall u v,
  rsum 0 (q_nV q) (fun i => u i * Hx v i) = rsum 0 (q_nV q) (fun i => v i * Hx u i).
Proof.
  intros S u v. unfold Hx.
  transitivity (rsum 0 (q_nV q) (fun i => rsum 0 (q_nV q) (fun j => u i * (q_H q i j * v j)))).
  { apply rsum_ext. intros i Hi. unfold rsum. now rewrite <- lsum_scal. }
  rewrite rsum_swap. apply rsum_ext. intros j Hj. unfold rsum. rewrite <- lsum_scal. apply lsum_ext.
  intros i Hi. apply In_zseq in Hi. rewrite (S i j) by assumption. ring.
Qed.

(** Exact second-order expansion. *)
Lemma objective_expand : symmetric -> forall x z,
  objective z = objective x + rsum 0 (q_nV q) (fun i => (q_g q i + Hx x i) * (z i - x i))
    + / 2 * rsum 0 (q_nV q) (fun i => (z i - x i) * Hx (fun j => z j - x j) i).
Proof.
  intros S x z. unfold objective.
  pose proof (Hx_sym S x z) as E.
  assert (E1 : rsum 0 (q_nV q) (fun i => (z i - x i) * Hx (fun j => z j - x j) i) =
    rsum 0 (q_nV q) (fun i => z i * Hx z i) - rsum 0 (q_nV q) (fun i => z i * Hx x i)
    - rsum 0 (q_nV q) (fun i => x i * Hx z i) + rsum 0 (q_nV q) (fun i => x i * Hx x i)).
  { unfold rsum at 2 3 4 5. rewrite <- lsum_minus, <- lsum_minus, <- lsum_plus. apply lsum_ext.
    intros i _. rewrite Hx_minus. ring. }
  assert (E2 : rsum 0 (q_nV q) (fun i => (q_g q i + Hx x i) * (z i - x i)) =
    rsum 0 (q_nV q) (fun i => q_g q i * z i) - rsum 0 (q_nV q) (fun i => q_g q i * x i)
    + rsum 0 (q_nV q) (fun i => z i * Hx x i) - rsum 0 (q_nV q) (fun i => x i * Hx x i)).
  { unfold rsum at 2 3 4 5. rewrite <- lsum_minus, <- lsum_plus, <- lsum_minus. apply lsum_ext. intros. ring. }
  rewrite E1, E2, E. lra.
Qed.

(** The gradient along a direction, split by the stationarity residual. *)
Lemma gradient_split x y yA d :
  rsum 0 (q_nV q) (fun i => (q_g q i + Hx x i) * d i) =
  rsum 0 (q_nV q) (fun i => stationarity x y yA i * d i) + rsum 0 (q_nV q) (fun i => y i * d i)
  + rsum 0 (q_nC q) (fun j => yA j * Ax d j).
Proof.
  assert (E : rsum 0 (q_nC q) (fun j => yA j * Ax d j) =
    rsum 0 (q_nV q) (fun i => rsum 0 (q_nC q) (fun j => q_A q j i * yA j) * d i)).
  { unfold Ax. transitivity (rsum 0 (q_nC q) (fun j => rsum 0 (q_nV q) (fun i => yA j * (q_A q j i * d i)))).
    { apply rsum_ext. intros j Hj. unfold rsum. now rewrite <- lsum_scal. }
    rewrite rsum_swap. apply rsum_ext. intros i Hi. unfold rsum. rewrite <- lsum_scal_r. apply lsum_ext. intros. ring. }
  rewrite E. unfold rsum at 1 2 3 4. rewrite <- lsum_plus, <- lsum_plus. apply lsum_ext. intros i _.
  unfold stationarity. ring.
Qed.

(** Approximate optimality: if each multiplier is [e]-complementary up to a slack
    [t] per unit of distance, then the objective gap at any feasible point is bounded. *)
Lemma approx_optimal x y yA z es ec t :
  symmetric -> psd ->
  (forall i, (0 <= i < q_nV q)%Z -> Rabs (stationarity x y yA i) <= es) ->
  (forall i, (0 <= i < q_nV q)%Z -> - ec - t * Rabs (z i - x i) <= y i * (z i - x i)) ->
  (forall j, (0 <= j < q_nC q)%Z -> - ec - t * Rabs (Ax z j - Ax x j) <= yA j * (Ax z j - Ax x j)) ->
  (0 <= q_nV q)%Z -> (0 <= q_nC q)%Z ->
  objective x - (es + t) * rsum 0 (q_nV q) (fun i => Rabs (z i - x i))
    - t * rsum 0 (q_nC q) (fun j => Rabs (Ax z j - Ax x j)) - IZR (q_nV q + q_nC q) * ec <= objective z.
Proof.
  intros S P Hs Hy HyA HnV HnC. rewrite (objective_expand S x z).
  pose proof (P (fun j => z j - x j)) as Hp.
  rewrite (gradient_split x y yA (fun i => z i - x i)).
  assert (B1 : - es * rsum 0 (q_nV q) (fun i => Rabs (z i - x i)) <=
    rsum 0 (q_nV q) (fun i => stationarity x y yA i * (z i - x i))).
  { unfold rsum. rewrite <- lsum_scal. apply lsum_le. intros i Hi. apply In_zseq in Hi.
    pose proof (Rabs_pos (z i - x i)). specialize (Hs i Hi).
    pose proof (Rle_abs (- (stationarity x y yA i * (z i - x i)))) as L. rewrite Rabs_Ropp, Rabs_mult in L.
    assert (Rabs (stationarity x y yA i) * Rabs (z i - x i) <= es * Rabs (z i - x i)) by now apply Rmult_le_compat_r.
    lra. }
  assert (C : forall n c, (0 <= n)%Z -> rsum 0 n (fun _ => c) = IZR n * c).
  { intros n c Hn. unfold rsum. rewrite lsum_const. rewrite INR_IZR_INZ.
    change (Z.of_nat (length (zrange n))) with (zlen (zrange n)). rewrite zlen_zseq. do 2 f_equal. lia. }
  assert (B2 : - (IZR (q_nV q) * ec) - t * rsum 0 (q_nV q) (fun i => Rabs (z i - x i)) <=
    rsum 0 (q_nV q) (fun i => y i * (z i - x i))).
  { rewrite <- C by assumption. unfold rsum. rewrite <- lsum_scal, <- lsum_opp, <- lsum_minus. apply lsum_le.
    intros i Hi. apply In_zseq in Hi. now apply Hy. }
  assert (B3 : - (IZR (q_nC q) * ec) - t * rsum 0 (q_nC q) (fun j => Rabs (Ax z j - Ax x j)) <=
    rsum 0 (q_nC q) (fun j => yA j * Ax (fun i => z i - x i) j)).
  { rewrite <- C by assumption. unfold rsum. rewrite <- lsum_scal, <- lsum_opp, <- lsum_minus. apply lsum_le.
    intros j Hj. apply In_zseq in Hj. rewrite Ax_minus. now apply HyA. }
  rewrite plus_IZR. lra.
Qed.

Lemma complementary_mult l u v y z : complementary l u v y -> within l u z -> 0 <= y * (z - v).
Proof.
  intros [H1 H2] [W1 W2]. destruct (Rtotal_order y 0) as [L|[ -> |G]].
  - specialize (W2 v (H2 L)). nra.
  - lra.
  - specialize (W1 v (H1 G)). nra.
Qed.

(** The KKT conditions are sufficient for convex problems. *)
Theorem kkt_minimiser x y yA : (0 <= q_nV q)%Z -> (0 <= q_nC q)%Z ->
  symmetric -> psd -> kkt x y yA -> minimiser x.
Proof.
  intros HnV HnC S P (F & St & Cb & Cc). split; [exact F|]. intros z [Fz1 Fz2].
  pose proof (approx_optimal x y yA z 0 0 0 S P) as G.
  assert (G' : objective x - (0 + 0) * rsum 0 (q_nV q) (fun i => Rabs (z i - x i))
    - 0 * rsum 0 (q_nC q) (fun j => Rabs (Ax z j - Ax x j)) - IZR (q_nV q + q_nC q) * 0 <= objective z).
  { apply G; auto.
    - intros i Hi. rewrite St by assumption. rewrite Rabs_R0. lra.
    - intros i Hi. pose proof (complementary_mult _ _ _ _ (z i) (Cb i Hi) (Fz1 i Hi)). lra.
    - intros j Hj. pose proof (complementary_mult _ _ _ _ (Ax z j) (Cc j Hj) (Fz2 j Hj)). lra. }
  lra.
Qed.

(** For positive definite Hessians the minimiser is unique. *)
Theorem kkt_unique x y yA z : (0 <= q_nV q)%Z -> (0 <= q_nC q)%Z ->
  symmetric -> pd -> kkt x y yA -> minimiser z -> forall i, (0 <= i < q_nV q)%Z -> z i = x i.
Proof.
  intros HnV HnC S P (F & St & Cb & Cc) [Fz Mz] i Hi.
  destruct (Req_dec (z i) (x i)) as [E|N]; [exact E|exfalso].
  assert (Lt : 0 < rsum 0 (q_nV q) (fun i => (z i - x i) * Hx (fun j => z j - x j) i)).
  { apply P. exists i. split; [assumption|]. lra. }
  pose proof (Mz x F) as Le. rewrite (objective_expand S x z) in Le.
  rewrite (gradient_split x y yA (fun i => z i - x i)) in Le. destruct Fz as [Fz1 Fz2].
  assert (E1 : rsum 0 (q_nV q) (fun i => stationarity x y yA i * (z i - x i)) = 0).
  { apply rsum_0. intros k Hk. rewrite St by assumption. ring. }
  assert (E2 : 0 <= rsum 0 (q_nV q) (fun i => y i * (z i - x i))).
  { apply lsum_nonneg. intros k Hk. apply In_zseq in Hk. apply (complementary_mult _ _ _ _ (z k) (Cb k Hk) (Fz1 k Hk)). }
  assert (E3 : 0 <= rsum 0 (q_nC q) (fun j => yA j * Ax (fun i => z i - x i) j)).
  { apply lsum_nonneg. intros k Hk. apply In_zseq in Hk. rewrite Ax_minus.
    apply (complementary_mult _ _ _ _ (Ax z k) (Cc k Hk) (Fz2 k Hk)). }
  lra.
Qed.
End Qp.
