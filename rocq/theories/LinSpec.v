(** Matrices as functions on indices: quadratic forms, positive definiteness,
    triangular systems.  Mathematical specification; follows no file of /repo. *)
From Verif Require Export RSum.
Local Open Scope R_scope.

Definition matvec (n : Z) (M : Z -> Z -> R) (x : Z -> R) (i : Z) : R := rsum 0 n (fun j => M i j * x j).
Definition dotp (n : Z) (x y : Z -> R) : R := rsum 0 n (fun i => x i * y i).
Definition quad (n : Z) (M : Z -> Z -> R) (x : Z -> R) : R := rsum 0 n (fun i => rsum 0 n (fun j => x i * M i j * x j)).
(** The form is positive for every vector that is not zero. *)
Definition posdef (n : Z) (M : Z -> Z -> R) : Prop :=
  forall x, (exists i, (0 <= i < n)%Z /\ x i <> 0) -> 0 < quad n M x.
Definition upper_tri (n : Z) (U : Z -> Z -> R) : Prop :=
  forall i j, (0 <= j < i)%Z -> (i < n)%Z -> U i j = 0.
(** U'U = M on the leading block of size n *)
Definition gram (n : Z) (U M : Z -> Z -> R) : Prop :=
  forall i j, (0 <= i < n)%Z -> (0 <= j < n)%Z -> rsum 0 n (fun k => U k i * U k j) = M i j.

Lemma rsum_scal lo hi c f : rsum lo hi (fun i => c * f i) = c * rsum lo hi f.
Proof. apply lsum_scal. Qed.
Lemma rsum_scal_r lo hi c f : rsum lo hi (fun i => f i * c) = rsum lo hi f * c.
Proof. apply lsum_scal_r. Qed.
Lemma rsum_plus lo hi f g : rsum lo hi (fun i => f i + g i) = rsum lo hi f + rsum lo hi g.
Proof. apply lsum_plus. Qed.
Lemma rsum_minus lo hi f g : rsum lo hi (fun i => f i - g i) = rsum lo hi f - rsum lo hi g.
Proof. apply lsum_minus. Qed.
Lemma rsum_opp lo hi f : rsum lo hi (fun i => - f i) = - rsum lo hi f.
Proof. apply lsum_opp. Qed.
Lemma rsum_nonneg lo hi f : (forall i, (lo <= i < hi)%Z -> 0 <= f i) -> 0 <= rsum lo hi f.
Proof. intros H. apply lsum_nonneg. intros i Hi. apply H. now apply In_zseq. Qed.
Lemma rsum_nonneg_0 lo hi f : (forall i, (lo <= i < hi)%Z -> 0 <= f i) -> rsum lo hi f = 0 ->
  forall i, (lo <= i < hi)%Z -> f i = 0.
Proof.
  intros H E i Hi. apply (lsum_nonneg_0 (zseq lo hi)); auto.
  - intros j Hj. apply H. now apply In_zseq.
  - now apply In_zseq.
Qed.

(** x'(U'U)x = |Ux|^2 *)
Lemma gram_quad n U M x : gram n U M -> quad n M x = rsum 0 n (fun k => matvec n U x k * matvec n U x k).
Proof.
  intros G. unfold quad.
  transitivity (rsum 0 n (fun i => rsum 0 n (fun j => rsum 0 n (fun k => (U k i * x i) * (U k j * x j))))).
  { apply rsum_ext; intros i Hi. apply rsum_ext; intros j Hj. rewrite <- (G i j Hi Hj).
    rewrite (Rmult_comm (x i)), Rmult_assoc, <- rsum_scal_r. apply rsum_ext; intros. ring. }
  transitivity (rsum 0 n (fun i => rsum 0 n (fun k => (U k i * x i) * matvec n U x k))).
  { apply rsum_ext; intros i Hi. rewrite rsum_swap. apply rsum_ext; intros k Hk. unfold matvec. now rewrite <- rsum_scal. }
  rewrite rsum_swap. apply rsum_ext; intros k Hk. now rewrite rsum_scal_r.
Qed.

Lemma tri_injective n U x : upper_tri n U -> (forall i, (0 <= i < n)%Z -> U i i <> 0) ->
  (forall k, (0 <= k < n)%Z -> matvec n U x k = 0) -> forall i, (0 <= i < n)%Z -> x i = 0.
Proof.
  intros UT D E.
  cut (forall m, (0 <= m)%Z -> forall i, (n - m <= i < n)%Z -> (0 <= i)%Z -> x i = 0).
  { intros H i Hi. apply (H n); lia. }
  intros m Hm. pattern m. apply natlike_ind; [intros; lia| |assumption].
  clear m Hm. intros m Hm IH i Hi H0.
  destruct (Z.eq_dec i (n - Z.succ m)) as [Ei|]; [|apply IH; lia].
  assert (Hk : (0 <= i < n)%Z) by lia.
  assert (E1 := E i Hk). unfold matvec in E1. rewrite (rsum_delta 0 n i) in E1.
  - apply Rmult_integral in E1 as [E1|E1]; auto. now destruct (D i Hk).
  - lia.
  - intros j Hj Hne. destruct (Z.lt_ge_cases j i) as [L|L].
    + rewrite UT by lia. ring.
    + rewrite (IH j) by lia. ring.
Qed.

(** An upper triangular factor with nonzero diagonal makes the matrix positive definite. *)
Lemma gram_posdef n U M : upper_tri n U -> (forall i, (0 <= i < n)%Z -> U i i <> 0) -> gram n U M -> posdef n M.
Proof.
  intros UT D G x (i & Hi & Hx). rewrite (gram_quad n U M x G).
  assert (P : 0 <= rsum 0 n (fun k => matvec n U x k * matvec n U x k)) by (apply rsum_nonneg; intros; nra).
  destruct P as [P|P]; auto. exfalso. apply Hx.
  apply (tri_injective n U x); auto. intros k Hk.
  assert (Z := rsum_nonneg_0 0 n (fun k => matvec n U x k * matvec n U x k)).
  assert (E : matvec n U x k * matvec n U x k = 0) by (apply Z; auto; intros; nra).
  apply Rmult_integral in E. tauto.
Qed.

Lemma tri_solve n U r : (0 <= n)%Z -> upper_tri n U -> (forall i, (0 <= i < n)%Z -> U i i <> 0) ->
  exists x, forall k, (0 <= k < n)%Z -> matvec n U x k = r k.
Proof.
  intros Hn. revert r. pattern n. apply natlike_ind; [| |assumption].
  - intros. exists (fun _ => 0). intros; lia.
  - clear n Hn. intros n Hn IH r UT D.
    destruct (IH (fun k => r k - U k n * (r n / U n n))) as (x & Ex).
    + intros i j Hj Hi. apply UT; lia.
    + intros i Hi. apply D; lia.
    + exists (fun j => if (j =? n)%Z then r n / U n n else x j).
      intros k Hk. unfold matvec, Z.succ. rewrite rsum_last by lia. rewrite Z.eqb_refl.
      destruct (Z.eq_dec k n) as [->|].
      * rewrite rsum_0; [field; apply D; lia|]. intros i Hi. rewrite UT by lia. ring.
      * rewrite (rsum_ext 0 n _ (fun j => U k j * x j)).
        -- fold (matvec n U x k). rewrite Ex by lia. ring.
        -- intros i Hi. destruct (Z.eqb_spec i n); [lia|reflexivity].
Qed.

Lemma quad_succ n M x : (0 <= n)%Z -> (forall i, (0 <= i < n)%Z -> M n i = M i n) ->
  quad (n + 1) M x = quad n M x + 2 * x n * rsum 0 n (fun i => x i * M i n) + x n * M n n * x n.
Proof.
  intros Hn S. unfold quad. rewrite rsum_last by lia.
  rewrite (rsum_ext 0 n _ (fun i => rsum 0 n (fun j => x i * M i j * x j) + x i * M i n * x n))
    by (intros; rewrite rsum_last by lia; reflexivity).
  rewrite rsum_plus, rsum_last by lia.
  rewrite (rsum_ext 0 n (fun j => x n * M n j * x j) (fun j => x n * (x j * M j n)))
    by (intros j Hj; rewrite S by assumption; ring).
  rewrite rsum_scal, (rsum_scal_r 0 n (x n) (fun i => x i * M i n)). ring.
Qed.

(** The pivot of the next step is a value of the quadratic form. *)
Lemma pivot_value n U M : (0 <= n)%Z -> upper_tri n U -> (forall i, (0 <= i < n)%Z -> U i i <> 0) -> gram n U M ->
  (forall i, (0 <= i < n)%Z -> M n i = M i n) ->
  (forall i, (0 <= i < n)%Z -> rsum 0 n (fun k => U k i * U k n) = M i n) ->
  exists x, x n = 1 /\ quad (n + 1) M x = M n n - rsum 0 n (fun k => U k n * U k n).
Proof.
  intros Hn UT D G S C.
  destruct (tri_solve n U (fun k => - U k n) Hn UT D) as (x0 & Ex).
  pose (x := fun j => if (j =? n)%Z then 1 else x0 j).
  assert (Exk : forall k, (0 <= k < n)%Z -> matvec n U x k = - U k n).
  { intros k Hk. rewrite <- (Ex k Hk). apply rsum_ext. intros j Hj. unfold x. destruct (Z.eqb_spec j n); [lia|reflexivity]. }
  exists x. assert (Xn : x n = 1) by (unfold x; now rewrite Z.eqb_refl). split; auto.
  rewrite quad_succ by auto. rewrite Xn, (gram_quad n U M x G).
  rewrite (rsum_ext 0 n _ (fun k => U k n * U k n)) by (intros k Hk; rewrite Exk by assumption; ring).
  rewrite (rsum_ext 0 n (fun i => x i * M i n) (fun i => rsum 0 n (fun k => (U k i * x i) * U k n))).
  2:{ intros i Hi. rewrite <- (C i Hi), <- rsum_scal. apply rsum_ext; intros; ring. }
  rewrite rsum_swap.
  rewrite (rsum_ext 0 n (fun j => rsum 0 n (fun i => U j i * x i * U j n)) (fun j => - (U j n * U j n))).
  2:{ intros k Hk. rewrite rsum_scal_r. fold (matvec n U x k). rewrite Exk by assumption. ring. }
  rewrite rsum_opp. ring.
Qed.
