(** Determinants of real matrices, given as functions of row and column: expansion
    along the last row, and its consequences for row operations. *)
From Verif Require Import Base RSum LinSpec.
Local Open Scope R_scope.

Definition sg (k : Z) : R := if Z.even k then 1 else -1.
(** matrix without column j *)
Definition dropc (j : Z) (f : Z -> Z -> R) : Z -> Z -> R := fun i k => f i (if k <? j then k else k + 1)%Z.
Fixpoint det (n : nat) (f : Z -> Z -> R) : R :=
  match n with
  | O => 1
  | S n => rsum 0 (Z.of_nat n + 1) (fun j => sg (Z.of_nat n + j) * f (Z.of_nat n) j * det n (dropc j f))
  end.
Example det_2 a b c d : det 2 (fun i j => if (i =? 0)%Z then (if (j =? 0)%Z then a else b) else (if (j =? 0)%Z then c else d)) = a * d - b * c.
Proof.
  cbn [det Z.of_nat Pos.of_succ_nat]. change (0 + 1)%Z with 1%Z. change (1 + 1)%Z with 2%Z. rewrite (rsum_first 0 2), (rsum_first (0 + 1) 2) by lia. rewrite (rsum_empty (0 + 1 + 1)) by lia.
  rewrite !(rsum_first 0 1), !(rsum_empty (0 + 1) 1) by lia. unfold sg, dropc.
  repeat match goal with |- context [if ?b then _ else _] => let v := eval vm_compute in b in change b with v; cbv iota end. ring.
Qed.

Lemma sg_add a b : sg (a + b) = sg a * sg b.
Proof. unfold sg. rewrite Z.even_add. destruct (Z.even a), (Z.even b); cbn [Bool.eqb]; lra. Qed.
Lemma sg_sq a : sg a * sg a = 1.
Proof. unfold sg. destruct (Z.even a); lra. Qed.
Lemma sg_1 : sg 1 = -1. Proof. reflexivity. Qed.
Lemma sg_m1 : sg (-1) = -1. Proof. reflexivity. Qed.

Lemma det_ext n : forall f g, (forall i j, (0 <= i < Z.of_nat n)%Z -> (0 <= j < Z.of_nat n)%Z -> f i j = g i j) -> det n f = det n g.
Proof.
  induction n as [|n IH]; intros f g E; [reflexivity|]. cbn [det]. apply rsum_ext. intros j Hj. rewrite E by lia. f_equal. apply IH.
  intros i k Hi Hk. unfold dropc. apply E; [lia|]. destruct (Z.ltb_spec k j); lia.
Qed.
Definition setrow (r : Z) (v : Z -> R) (f : Z -> Z -> R) : Z -> Z -> R := fun i k => if (i =? r)%Z then v k else f i k.
Lemma det_lin n : forall r f u v a b, (0 <= r < Z.of_nat n)%Z ->
  det n (setrow r (fun k => a * u k + b * v k) f) = a * det n (setrow r u f) + b * det n (setrow r v f).
Proof.
  induction n as [|n IH]; intros r f u v a b Hr; [lia|]. cbn [det]. rewrite <- !rsum_scal, <- rsum_plus. apply rsum_ext. intros j Hj. unfold setrow at 1 3 5.
  destruct (Z.eqb_spec (Z.of_nat n) r) as [<-|N].
  - assert (E : forall w, det n (dropc j (setrow (Z.of_nat n) w f)) = det n (dropc j f)).
    { intros w. apply det_ext. intros i k Hi Hk. unfold dropc, setrow. destruct (Z.eqb_spec i (Z.of_nat n)); [lia|reflexivity]. }
    rewrite !E. ring.
  - assert (E : forall w, det n (dropc j (setrow r w f)) = det n (setrow r (fun k => w (if k <? j then k else k + 1)%Z) (dropc j f))) by (intros w; apply det_ext; reflexivity).
    rewrite !E. rewrite (IH r (dropc j f) (fun k => u (if k <? j then k else k + 1)%Z) (fun k => v (if k <? j then k else k + 1)%Z) a b) by lia. ring.
Qed.
Lemma rsum_skip n j F : (0 <= j <= n)%Z -> rsum 0 n (fun k => F (if k <? j then k else k + 1)%Z) = rsum 0 (n + 1) F - F j.
Proof.
  intros Hj. rewrite (rsum_split 0 j n) by lia. rewrite (rsum_split 0 j (n + 1)) by lia. rewrite (rsum_first j (n + 1)) by lia.
  rewrite (rsum_ext 0 j _ F) by (intros i Hi; destruct (Z.ltb_spec i j); [reflexivity|lia]).
  rewrite (rsum_ext j n _ (fun k => F (k + 1)%Z)) by (intros i Hi; destruct (Z.ltb_spec i j); [lia|reflexivity]).
  rewrite (rsum_shift 1 j n F). lra.
Qed.
Lemma antisym_sum n X : (forall i j, (0 <= i < n)%Z -> (0 <= j < n)%Z -> X i j = - X j i) -> rsum 0 n (fun i => rsum 0 n (fun j => X i j)) = 0.
Proof.
  intros A. assert (E : rsum 0 n (fun i => rsum 0 n (fun j => X i j)) = - rsum 0 n (fun i => rsum 0 n (fun j => X i j))); [|lra].
  rewrite rsum_swap at 1. rewrite <- rsum_opp. apply rsum_ext. intros i Hi. rewrite <- rsum_opp. apply rsum_ext. intros j Hj. now apply A.
Qed.
Lemma drop_drop j k f i c : (j <= k)%Z -> dropc k (dropc j f) i c = dropc j (dropc (k + 1) f) i c.
Proof. intros L. unfold dropc. f_equal. repeat match goal with |- context [Z.ltb ?a ?b] => destruct (Z.ltb_spec a b) end; lia. Qed.
Lemma det_alt_adj n : forall f r, (0 <= r)%Z -> (r + 1 < Z.of_nat n)%Z -> (forall k, f r k = f (r + 1)%Z k) -> det n f = 0.
Proof.
  induction n as [|n IH]; intros f r Hr Hn E; [lia|]. destruct (Z.eq_dec (r + 1) (Z.of_nat n)) as [Er|Nr].
  - destruct n as [|m]; [lia|]. clear IH. set (a := fun k => f (r + 1)%Z k).
    set (X := fun j l => if (j =? l)%Z then 0 else a j * a l * (if (l <? j)%Z then -1 else 1) * sg (j + l) * det m (dropc (Z.min j l) (dropc (Z.max j l) f))).
    transitivity (rsum 0 (Z.of_nat m + 1 + 1) (fun j => rsum 0 (Z.of_nat m + 1 + 1) (fun l => X j l))).
    + change (det (S (S m)) f) with (rsum 0 (Z.of_nat (S m) + 1) (fun j => sg (Z.of_nat (S m) + j) * f (Z.of_nat (S m)) j * det (S m) (dropc j f))).
      replace (Z.of_nat (S m)) with (Z.of_nat m + 1)%Z by lia. apply rsum_ext. intros j Hj. cbn [det]. rewrite <- rsum_scal.
      assert (K : rsum 0 (Z.of_nat m + 1) (fun k => X j (if k <? j then k else k + 1)%Z) = rsum 0 (Z.of_nat m + 1 + 1) (fun l => X j l)).
      { rewrite (rsum_skip _ j (fun l => X j l)) by lia. assert (X j j = 0) as -> by (unfold X; now rewrite Z.eqb_refl). lra. }
      rewrite <- K. apply rsum_ext. intros k Hk. unfold X, dropc at 1.
      assert (Em : Z.of_nat m = r) by lia. rewrite Em. rewrite E. fold (a j). unfold a.
      destruct (Z.ltb_spec k j) as [L|L].
      * destruct (Z.eqb_spec j k); [lia|]. destruct (Z.ltb_spec k j); [|lia]. rewrite Z.min_r, Z.max_l by lia. rewrite !sg_add, sg_1. pose proof (sg_sq r) as Q.
        transitivity (- (sg r * sg r) * sg j * sg k * f (r + 1)%Z j * f (r + 1)%Z k * det m (dropc k (dropc j f))); [ring|]. rewrite Q. ring.
      * destruct (Z.eqb_spec j (k + 1)); [lia|]. destruct (Z.ltb_spec (k + 1) j); [lia|]. rewrite Z.min_l, Z.max_r by lia. rewrite (det_ext m (dropc k (dropc j f)) (dropc j (dropc (k + 1) f))) by (intros; apply drop_drop; lia).
        rewrite !sg_add, sg_1. pose proof (sg_sq r) as Q.
        transitivity (- (sg r * sg r) * sg j * sg k * f (r + 1)%Z j * f (r + 1)%Z (k + 1)%Z * det m (dropc j (dropc (k + 1) f))); [ring|]. rewrite Q. ring.
    + apply antisym_sum. intros i j _ _. unfold X. destruct (Z.eqb_spec i j), (Z.eqb_spec j i); try lia; [lra|]. rewrite (Z.min_comm j i), (Z.max_comm j i), (Z.add_comm j i).
      destruct (Z.ltb_spec j i), (Z.ltb_spec i j); try lia; ring.
  - cbn [det]. apply rsum_0. intros j Hj. rewrite (IH (dropc j f) r); [ring|lia|lia|]. intros k. unfold dropc. apply E.
Qed.

(** *** row operations *)
Definition swaprow (a b : Z) (f : Z -> Z -> R) : Z -> Z -> R := fun i k => f (if i =? a then b else if i =? b then a else i)%Z k.
Lemma setrow_id n r f : det n (setrow r (f r) f) = det n f.
Proof. apply det_ext. intros i j Hi Hj. unfold setrow. now destruct (Z.eqb_spec i r) as [->|]. Qed.
Lemma setrow2 n a b u v f : a <> b -> det n (setrow a u (setrow b v f)) = det n (setrow b v (setrow a u f)).
Proof. intros D. apply det_ext. intros i j Hi Hj. unfold setrow. destruct (Z.eqb_spec i a), (Z.eqb_spec i b); congruence. Qed.
Lemma det_lin2 n a b f u v p q x y : a <> b -> (0 <= a < Z.of_nat n)%Z -> (0 <= b < Z.of_nat n)%Z ->
  det n (setrow a (fun k => p * u k + q * v k) (setrow b (fun k => x * u k + y * v k) f)) =
  p * x * det n (setrow a u (setrow b u f)) + p * y * det n (setrow a u (setrow b v f))
  + q * x * det n (setrow a v (setrow b u f)) + q * y * det n (setrow a v (setrow b v f)).
Proof.
  intros D Ha Hb. rewrite det_lin by lia. rewrite !(setrow2 n a b) by lia. rewrite !(det_lin n b) by lia. rewrite !(setrow2 n b a) by lia. ring.
Qed.
(** from the alternation for a pair of rows to their exchange *)
Lemma alt_swap n a b (f : Z -> Z -> R) : a <> b -> (0 <= a < Z.of_nat n)%Z -> (0 <= b < Z.of_nat n)%Z ->
  (forall g, (forall k, g a k = g b k) -> det n g = 0) ->
  forall u v, det n (setrow a u (setrow b v f)) = - det n (setrow a v (setrow b u f)).
Proof.
  intros D Ha Hb A u v.
  assert (Z : forall w, det n (setrow a w (setrow b w f)) = 0).
  { intros w. apply A. intros k. unfold setrow. rewrite Z.eqb_refl. destruct (Z.eqb_spec b a); [lia|]. now rewrite Z.eqb_refl. }
  pose proof (det_lin2 n a b f u v 1 1 1 1 D Ha Hb) as L. rewrite (Z (fun k => 1 * u k + 1 * v k)) in L. rewrite (Z u), (Z v) in L. lra.
Qed.
Lemma swaprow_set n a b f : a <> b -> det n (swaprow a b f) = det n (setrow a (f b) (setrow b (f a) f)).
Proof. intros D. apply det_ext. intros i j Hi Hj. unfold swaprow, setrow. destruct (Z.eqb_spec i a), (Z.eqb_spec i b); congruence. Qed.
Lemma same_set n a b f : det n f = det n (setrow a (f a) (setrow b (f b) f)).
Proof. apply det_ext. intros i j Hi Hj. unfold setrow. destruct (Z.eqb_spec i a), (Z.eqb_spec i b); congruence. Qed.
Lemma det_swap_adj n f r : (0 <= r)%Z -> (r + 1 < Z.of_nat n)%Z -> det n (swaprow r (r + 1) f) = - det n f.
Proof.
  intros Hr Hn. rewrite swaprow_set by lia. rewrite (same_set n r (r + 1) f). apply alt_swap; try lia. intros g E. now apply (det_alt_adj n g r).
Qed.
Lemma det_alt n f a b : (0 <= a < b)%Z -> (b < Z.of_nat n)%Z -> (forall k, f a k = f b k) -> det n f = 0.
Proof.
  intros Ha Hb. remember (Z.to_nat (b - a)) as d eqn:Ed. revert f b Ha Hb Ed. induction d as [|d IH]; intros f b Ha Hb Ed E; [lia|].
  destruct (Z.eq_dec b (a + 1)) as [->|N]; [apply (det_alt_adj n f a); [lia|lia|assumption]|].
  assert (K : det n (swaprow (b - 1) (b - 1 + 1) f) = 0).
  { apply (IH _ (b - 1)%Z); try lia. intros k. unfold swaprow. replace (b - 1 + 1)%Z with b by lia. rewrite Z.eqb_refl. destruct (Z.eqb_spec a (b - 1)), (Z.eqb_spec a b); try lia. apply E. }
  rewrite det_swap_adj in K by lia. lra.
Qed.
Lemma det_alt' n f a b : a <> b -> (0 <= a < Z.of_nat n)%Z -> (0 <= b < Z.of_nat n)%Z -> (forall k, f a k = f b k) -> det n f = 0.
Proof.
  intros D Ha Hb E. destruct (Z.lt_ge_cases a b); [apply (det_alt n f a b); [lia|lia|assumption]|]. apply (det_alt n f b a); [lia|lia|]. intros k. symmetry. apply E.
Qed.
(** a plane rotation of two rows does not change the determinant *)
Definition rotrow (a b : Z) (c s : R) (f : Z -> Z -> R) : Z -> Z -> R :=
  fun i k => if (i =? a)%Z then c * f a k + s * f b k else if (i =? b)%Z then - s * f a k + c * f b k else f i k.
Lemma det_rot n a b c s f : a <> b -> (0 <= a < Z.of_nat n)%Z -> (0 <= b < Z.of_nat n)%Z -> c * c + s * s = 1 ->
  det n (rotrow a b c s f) = det n f.
Proof.
  intros D Ha Hb E.
  transitivity (det n (setrow a (fun k => c * f a k + s * f b k) (setrow b (fun k => - s * f a k + c * f b k) f))).
  { apply det_ext. intros i j Hi Hj. unfold rotrow, setrow. destruct (Z.eqb_spec i a), (Z.eqb_spec i b); congruence. }
  rewrite det_lin2 by assumption.
  assert (Z : forall w, det n (setrow a w (setrow b w f)) = 0).
  { intros w. apply (det_alt' n _ a b); try assumption. intros k. unfold setrow. rewrite Z.eqb_refl. destruct (Z.eqb_spec b a); [lia|]. now rewrite Z.eqb_refl. }
  rewrite !Z. rewrite (alt_swap n a b f D Ha Hb) with (u := f b) (v := f a) by (intros g G; apply (det_alt' n g a b); assumption).
  rewrite <- (same_set n a b f). replace (det n f) with ((c * c + s * s) * det n f) at 3 by (rewrite E; ring). ring.
Qed.
Lemma det_negrow n r f : (0 <= r < Z.of_nat n)%Z -> det n (fun i k => if (i =? r)%Z then - f i k else f i k) = - det n f.
Proof.
  intros Hr. transitivity (det n (setrow r (fun k => -1 * f r k + 0 * f r k) f)).
  { apply det_ext. intros i j Hi Hj. unfold setrow. destruct (Z.eqb_spec i r) as [->|]; ring. }
  rewrite det_lin by assumption. rewrite setrow_id. ring.
Qed.
(** row n of f moved before row m *)
Definition insrow (m n : Z) (f : Z -> Z -> R) : Z -> Z -> R := fun i k => f (if i <? m then i else if i =? m then n else i - 1)%Z k.
Lemma det_insrow n m f : (0 <= m <= Z.of_nat n)%Z -> det (S n) (insrow m (Z.of_nat n) f) = sg (Z.of_nat n - m) * det (S n) f.
Proof.
  intros Hm. remember (Z.to_nat (Z.of_nat n - m)) as d eqn:Ed. revert m Hm Ed. induction d as [|d IH]; intros m Hm Ed.
  - assert (m = Z.of_nat n) as -> by lia. replace (Z.of_nat n - Z.of_nat n)%Z with 0%Z by lia. unfold sg at 1. cbn [Z.even]. rewrite Rmult_1_l. apply det_ext. intros i j Hi Hj. unfold insrow.
    destruct (Z.ltb_spec i (Z.of_nat n)); [reflexivity|]. destruct (Z.eqb_spec i (Z.of_nat n)) as [->|]; [reflexivity|lia].
  - transitivity (det (S n) (swaprow m (m + 1) (insrow (m + 1) (Z.of_nat n) f))).
    + apply det_ext. intros i j Hi Hj. unfold swaprow, insrow. f_equal. destruct (Z.eqb_spec i m); [|destruct (Z.eqb_spec i (m + 1))]; try lia;
      repeat (match goal with |- context [(?a <? ?b)%Z] => destruct (Z.ltb_spec a b) | |- context [(?a =? ?b)%Z] => destruct (Z.eqb_spec a b) end; try lia).
    + rewrite det_swap_adj by lia. rewrite IH by lia. replace (Z.of_nat n - m)%Z with (Z.of_nat n - (m + 1) + 1)%Z by lia. rewrite (sg_add _ 1), sg_1. ring.
Qed.
(** last row zero but for its last entry; triangular matrices *)
Lemma det_lastrow n f : (forall j, (0 <= j < Z.of_nat n)%Z -> f (Z.of_nat n) j = 0) -> det (S n) f = f (Z.of_nat n) (Z.of_nat n) * det n f.
Proof.
  intros Z. cbn [det]. rewrite rsum_last by lia. rewrite rsum_0 by (intros j Hj; rewrite Z by lia; ring). rewrite sg_add, sg_sq.
  rewrite (det_ext n (dropc (Z.of_nat n) f) f); [ring|]. intros i j Hi Hj. unfold dropc. destruct (Z.ltb_spec j (Z.of_nat n)); [reflexivity|lia].
Qed.
Fixpoint diagprod (n : nat) (f : Z -> Z -> R) : R := match n with O => 1 | S n => f (Z.of_nat n) (Z.of_nat n) * diagprod n f end.
Lemma det_upper n : forall f, (forall i j, (0 <= j < i)%Z -> (i < Z.of_nat n)%Z -> f i j = 0) -> det n f = diagprod n f.
Proof.
  induction n as [|n IH]; intros f Z; [reflexivity|]. rewrite det_lastrow by (intros j Hj; apply Z; lia). cbn [diagprod]. rewrite IH; [reflexivity|]. intros i j Hi Hj. apply Z; lia.
Qed.

(** *** matrices that preserve determinants *)
Definition TM (n : nat) (q m : Z -> Z -> R) : Z -> Z -> R := fun i j => rsum 0 (Z.of_nat n) (fun k => q k i * m k j).
Definition DP (n : nat) (q : Z -> Z -> R) : Prop := forall m, det n (TM n q m) = det n m.
Definition rotcol (a b : Z) (c s : R) (f : Z -> Z -> R) : Z -> Z -> R :=
  fun i k => if (k =? a)%Z then c * f i a + s * f i b else if (k =? b)%Z then - s * f i a + c * f i b else f i k.
Lemma DP_ext n q q' : (forall i j, (0 <= i < Z.of_nat n)%Z -> (0 <= j < Z.of_nat n)%Z -> q i j = q' i j) -> DP n q -> DP n q'.
Proof.
  intros E D m. rewrite <- (D m). apply det_ext. intros i j Hi Hj. unfold TM. apply rsum_ext. intros k Hk. now rewrite E by assumption.
Qed.
Lemma DP_rot n a b c s q : a <> b -> (0 <= a < Z.of_nat n)%Z -> (0 <= b < Z.of_nat n)%Z -> c * c + s * s = 1 -> DP n q -> DP n (rotcol a b c s q).
Proof.
  intros N Ha Hb E D m. rewrite <- (D m). rewrite <- (det_rot n a b c s (TM n q m)) by assumption. apply det_ext. intros i j Hi Hj. unfold TM, rotcol, rotrow.
  destruct (i =? a)%Z; [|destruct (i =? b)%Z; [|reflexivity]]; rewrite <- !rsum_scal, <- rsum_plus; apply rsum_ext; intros k Hk; ring.
Qed.
Lemma DP_border n q q' : (forall i j, (0 <= i < Z.of_nat n)%Z -> (0 <= j < Z.of_nat n)%Z -> q' i j = q i j) ->
  (forall i, (0 <= i < Z.of_nat n)%Z -> q' i (Z.of_nat n) = 0 /\ q' (Z.of_nat n) i = 0) -> q' (Z.of_nat n) (Z.of_nat n) = 1 ->
  DP n q -> DP (S n) q'.
Proof.
  intros E Z U D m. cbn [det]. apply rsum_ext. intros j Hj.
  assert (TM (S n) q' m (Z.of_nat n) j = m (Z.of_nat n) j) as ->.
  { unfold TM. rewrite Nat2Z.inj_succ. unfold Z.succ. rewrite rsum_last by lia. rewrite rsum_0 by (intros k Hk; rewrite (proj1 (Z k Hk)); ring). rewrite U. ring. }
  f_equal. rewrite <- (D (dropc j m)). apply det_ext. intros i k Hi Hk. unfold dropc, TM. rewrite Nat2Z.inj_succ. unfold Z.succ. rewrite rsum_last by lia. rewrite (proj2 (Z i Hi)). rewrite Rmult_0_l, Rplus_0_r.
  apply rsum_ext. intros l Hl. now rewrite E.
Qed.
(** reducing: row m of q removed, with the last entry of its transformed version q' on the diagonal *)
Definition movelast (m n : Z) (q : Z -> Z -> R) : Z -> Z -> R := fun i k => q (if i <? m then i else if i <? n then i + 1 else m)%Z k.
Lemma DP_movelast n m q : (0 <= m <= Z.of_nat n)%Z -> DP (S n) q -> forall M, det (S n) (TM (S n) (movelast m (Z.of_nat n) q) M) = sg (Z.of_nat n - m) * det (S n) M.
Proof.
  intros Hm D M. rewrite <- det_insrow by assumption. rewrite <- (D (insrow m (Z.of_nat n) M)). apply det_ext. intros i j Hi Hj. unfold TM. rewrite Nat2Z.inj_succ.
  unfold Z.succ.
  set (F := fun l => q l i * insrow m (Z.of_nat n) M l j).
  rewrite rsum_last by lia. pose proof (rsum_skip (Z.of_nat n) m F Hm) as S. 
  rewrite (rsum_ext 0 (Z.of_nat n) _ (fun k => F (if k <? m then k else k + 1)%Z)).
  - rewrite S. unfold movelast. destruct (Z.ltb_spec (Z.of_nat n) m); [lia|]. destruct (Z.ltb_spec (Z.of_nat n) (Z.of_nat n)); [lia|].
    assert (F m = q m i * M (Z.of_nat n) j) as -> by (unfold F, insrow; destruct (Z.ltb_spec m m); [lia|]; now rewrite Z.eqb_refl). unfold F. ring.
  - intros k Hk. unfold F, movelast, insrow. destruct (Z.ltb_spec k m) as [L|L].
    + destruct (Z.ltb_spec k m); [reflexivity|lia].
    + destruct (Z.ltb_spec k (Z.of_nat n)); [|lia]. destruct (Z.ltb_spec (k + 1) m); [lia|]. destruct (Z.eqb_spec (k + 1) m); [lia|]. now replace (k + 1 - 1)%Z with k by lia.
Qed.
Lemma DP_reduce n s q' : (forall M, det (S n) (TM (S n) q' M) = s * det (S n) M) ->
  (forall i, (0 <= i < Z.of_nat n)%Z -> q' i (Z.of_nat n) = 0 /\ q' (Z.of_nat n) i = 0) ->
  forall M, q' (Z.of_nat n) (Z.of_nat n) * det n (TM n q' M) = s * det n M.
Proof.
  intros D Z M.
  set (B := fun i j => if (i =? Z.of_nat n)%Z then (if (j =? Z.of_nat n)%Z then 1 else 0) else if (j =? Z.of_nat n)%Z then 0 else M i j).
  assert (EB : det (S n) B = det n M).
  { rewrite det_lastrow. - unfold B at 1. rewrite Z.eqb_refl. rewrite Rmult_1_l. apply det_ext. intros i j Hi Hj. unfold B. destruct (Z.eqb_spec i (Z.of_nat n)), (Z.eqb_spec j (Z.of_nat n)); try lia; reflexivity.
    - intros j Hj. unfold B. rewrite Z.eqb_refl. destruct (Z.eqb_spec j (Z.of_nat n)); [lia|reflexivity]. }
  rewrite <- EB, <- D. rewrite det_lastrow.
  - unfold TM at 2. rewrite Nat2Z.inj_succ. unfold Z.succ. rewrite rsum_last by lia. rewrite rsum_0 by (intros k Hk; rewrite (proj1 (Z k Hk)); ring). unfold B at 1. rewrite Z.eqb_refl. rewrite Rplus_0_l, Rmult_1_r.
    f_equal. apply det_ext. intros i j Hi Hj. unfold TM. rewrite Nat2Z.inj_succ. unfold Z.succ. rewrite rsum_last by lia. rewrite (proj2 (Z i Hi)), Rmult_0_l, Rplus_0_r. apply rsum_ext. intros k Hk. unfold B.
    destruct (Z.eqb_spec k (Z.of_nat n)), (Z.eqb_spec j (Z.of_nat n)); try lia; reflexivity.
  - intros j Hj. unfold TM. rewrite Nat2Z.inj_succ. unfold Z.succ. rewrite rsum_last by lia. rewrite rsum_0 by (intros k Hk; rewrite (proj1 (Z k Hk)); ring). unfold B. rewrite Z.eqb_refl. destruct (Z.eqb_spec j (Z.of_nat n)); [lia|ring].
Qed.
Lemma TM_negcol n r q : (0 <= r < Z.of_nat n)%Z -> forall M, det n (TM n (fun i k => if (k =? r)%Z then - q i k else q i k) M) = - det n (TM n q M).
Proof.
  intros Hr M. rewrite <- (det_negrow n r) by assumption. apply det_ext. intros i j Hi Hj. unfold TM. destruct (i =? r)%Z; [|reflexivity]. rewrite <- rsum_opp. apply rsum_ext. intros k Hk. ring.
Qed.
