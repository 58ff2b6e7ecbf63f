(** Finite sums over index lists and ranges, in R.  Mathematical vocabulary only;
    follows no file of /repo. *)
From Coq Require Export Reals Lra Permutation.
From Verif Require Export Base.
Local Open Scope R_scope.

Fixpoint lsum (l : list Z) (f : Z -> R) : R :=
  match l with [] => 0 | i :: l' => f i + lsum l' f end.

Fixpoint zseq_n (lo : Z) (n : nat) : list Z :=
  match n with O => [] | S n' => lo :: zseq_n (lo + 1) n' end.
Definition zseq (lo hi : Z) : list Z := zseq_n lo (Z.to_nat (hi - lo)).
Notation zrange n := (zseq 0 n).

(** Sum over lo <= i < hi. *)
Definition rsum (lo hi : Z) (f : Z -> R) : R := lsum (zseq lo hi) f.

Lemma In_zseq lo hi i : In i (zseq lo hi) <-> (lo <= i < hi)%Z.
Proof.
  unfold zseq. remember (Z.to_nat (hi - lo)) as n eqn:E.
  revert lo E. induction n as [|n IH]; intros lo E; cbn [zseq_n In].
  - lia.
  - rewrite (IH (lo + 1)%Z) by lia. lia.
Qed.

Lemma NoDup_zseq lo hi : NoDup (zseq lo hi).
Proof.
  unfold zseq. generalize (Z.to_nat (hi - lo)) as n. intros n. revert lo.
  induction n as [|n IH]; intros lo; cbn [zseq_n]; constructor; [|apply IH].
  assert (G : forall n lo' x, In x (zseq_n lo' n) -> (lo' <= x)%Z).
  { clear. induction n as [|n IH]; cbn [zseq_n In]; [tauto|]. intros lo' x [<-|H]; [lia|]. apply IH in H. lia. }
  intros H. apply G in H. lia.
Qed.

Lemma zseq_empty lo hi : (hi <= lo)%Z -> zseq lo hi = [].
Proof. intros. unfold zseq. now replace (Z.to_nat (hi - lo)) with O by lia. Qed.

Lemma zseq_cons lo hi : (lo < hi)%Z -> zseq lo hi = lo :: zseq (lo + 1) hi.
Proof. intros. unfold zseq. replace (Z.to_nat (hi - lo)) with (S (Z.to_nat (hi - (lo + 1)))) by lia. reflexivity. Qed.

Lemma zseq_n_app a b lo : zseq_n lo (a + b) = zseq_n lo a ++ zseq_n (lo + Z.of_nat a) b.
Proof.
  revert lo. induction a as [|a IH]; intros lo; cbn [plus zseq_n app].
  - f_equal. lia.
  - rewrite IH. do 3 f_equal. lia.
Qed.

Lemma zseq_app lo mid hi : (lo <= mid <= hi)%Z -> zseq lo hi = zseq lo mid ++ zseq mid hi.
Proof.
  unfold zseq. intros H. replace (Z.to_nat (hi - lo)) with (Z.to_nat (mid - lo) + Z.to_nat (hi - mid))%nat by lia.
  rewrite zseq_n_app. do 2 f_equal. lia.
Qed.

Lemma zlen_zseq lo hi : zlen (zseq lo hi) = Z.max 0 (hi - lo).
Proof.
  unfold zseq, zlen. assert (G : forall n lo, length (zseq_n lo n) = n).
  { clear. induction n as [|n IH]; intros lo; cbn; auto. }
  rewrite G. lia.
Qed.

Lemma zn_zseq d lo hi i : (0 <= i < hi - lo)%Z -> zn d (zseq lo hi) i = (lo + i)%Z.
Proof.
  unfold zseq, zn. intros H. assert (L : (Z.to_nat i < Z.to_nat (hi - lo))%nat) by lia.
  replace i with (Z.of_nat (Z.to_nat i)) at 2 by lia. revert L.
  generalize (Z.to_nat i) as k. generalize (Z.to_nat (hi - lo)) as n. clear. intros n. revert lo.
  induction n as [|n IH]; intros lo k Hk; [lia|]. destruct k as [|k]; cbn [zseq_n nth]; [lia|].
  rewrite IH by lia. lia.
Qed.

(** *** algebra *)

Lemma lsum_app l m f : lsum (l ++ m) f = lsum l f + lsum m f.
Proof. induction l as [|i l IH]; cbn [app lsum]; [lra|]. rewrite IH. lra. Qed.

Lemma lsum_ext l f g : (forall i, In i l -> f i = g i) -> lsum l f = lsum l g.
Proof.
  induction l as [|i l IH]; intros H; cbn [lsum]; [reflexivity|].
  rewrite H by (left; reflexivity). rewrite IH; [reflexivity|]. intros; apply H; now right.
Qed.

Lemma lsum_0 l f : (forall i, In i l -> f i = 0) -> lsum l f = 0.
Proof.
  induction l as [|i l IH]; intros H; cbn [lsum]; [reflexivity|].
  rewrite H by (left; reflexivity). rewrite IH; [lra|]. intros; apply H; now right.
Qed.

Lemma lsum_plus l f g : lsum l (fun i => f i + g i) = lsum l f + lsum l g.
Proof. induction l as [|i l IH]; cbn [lsum]; [lra|]. rewrite IH. lra. Qed.

Lemma lsum_minus l f g : lsum l (fun i => f i - g i) = lsum l f - lsum l g.
Proof. induction l as [|i l IH]; cbn [lsum]; [lra|]. rewrite IH. lra. Qed.

Lemma lsum_opp l f : lsum l (fun i => - f i) = - lsum l f.
Proof. induction l as [|i l IH]; cbn [lsum]; [lra|]. rewrite IH. lra. Qed.

Lemma lsum_scal c l f : lsum l (fun i => c * f i) = c * lsum l f.
Proof. induction l as [|i l IH]; cbn [lsum]; [lra|]. rewrite IH. lra. Qed.

Lemma lsum_scal_r c l f : lsum l (fun i => f i * c) = lsum l f * c.
Proof. induction l as [|i l IH]; cbn [lsum]; [lra|]. rewrite IH. lra. Qed.

Lemma lsum_const c l : lsum l (fun _ => c) = INR (length l) * c.
Proof. induction l as [|i l IH]; [cbn; lra|]. cbn [lsum]. rewrite IH. cbn [length]. rewrite S_INR. lra. Qed.

Lemma lsum_le l f g : (forall i, In i l -> f i <= g i) -> lsum l f <= lsum l g.
Proof.
  induction l as [|i l IH]; intros H; cbn [lsum]; [lra|].
  pose proof (H i (or_introl eq_refl)). assert (lsum l f <= lsum l g) by (apply IH; intros; apply H; now right). lra.
Qed.

Lemma lsum_nonneg l f : (forall i, In i l -> 0 <= f i) -> 0 <= lsum l f.
Proof. intros H. rewrite <- (lsum_0 l (fun _ => 0)) by auto. now apply lsum_le. Qed.

Lemma lsum_nonneg_0 l f : (forall i, In i l -> 0 <= f i) -> lsum l f = 0 -> forall i, In i l -> f i = 0.
Proof.
  induction l as [|j l IH]; intros H E i Hi; [destruct Hi|]. cbn [lsum] in E.
  pose proof (H j (or_introl eq_refl)) as Hj.
  assert (0 <= lsum l f) by (apply lsum_nonneg; intros; apply H; now right).
  destruct Hi as [<-|Hi]; [lra|]. apply IH; auto; [intros; apply H; now right|lra].
Qed.

Lemma lsum_abs l f : Rabs (lsum l f) <= lsum l (fun i => Rabs (f i)).
Proof.
  induction l as [|i l IH]; cbn [lsum]; [rewrite Rabs_R0; lra|].
  eapply Rle_trans; [apply Rabs_triang|]. lra.
Qed.

Lemma lsum_perm l m f : Permutation l m -> lsum l f = lsum m f.
Proof. induction 1; cbn [lsum]; lra. Qed.

Lemma lsum_swap l m f : lsum l (fun i => lsum m (fun j => f i j)) = lsum m (fun j => lsum l (fun i => f i j)).
Proof.
  induction l as [|i l IH]; cbn [lsum].
  - symmetry. now apply lsum_0.
  - rewrite IH, <- lsum_plus. reflexivity.
Qed.

Lemma lsum_delta l k f : NoDup l -> In k l -> (forall i, In i l -> i <> k -> f i = 0) -> lsum l f = f k.
Proof.
  induction l as [|j l IH]; intros Hn Hk H; [destruct Hk|]. cbn [lsum].
  apply NoDup_cons_iff in Hn as [Hj Hn]. destruct Hk as [->|Hk].
  - rewrite (lsum_0 l); [lra|]. intros i Hi. apply H; [now right|]. intros ->; contradiction.
  - rewrite IH; auto.
    + rewrite H; [lra|now left|]. intros ->; contradiction.
    + intros i Hi. apply H. now right.
Qed.

(** Removing one element. *)
Lemma lsum_remove l k f : NoDup l -> In k l ->
  lsum l f = f k + lsum (filter (fun i => negb (Z.eqb i k)) l) f.
Proof.
  induction l as [|j l IH]; intros Hn Hk; [destruct Hk|].
  apply NoDup_cons_iff in Hn as [Hj Hn]. cbn [filter]. destruct (Z.eqb_spec j k) as [->|Hne]; cbn [negb lsum].
  - f_equal. assert (E : filter (fun i => negb (Z.eqb i k)) l = l).
    { clear IH Hn Hk. induction l as [|i l IH]; [reflexivity|]. cbn [filter].
      destruct (Z.eqb_spec i k) as [->|]; cbn [negb]; [exfalso; apply Hj; now left|].
      f_equal. apply IH. intros ?; apply Hj; now right. }
    now rewrite E.
  - destruct Hk as [->|Hk]; [congruence|]. rewrite IH by assumption. lra.
Qed.

Lemma lsum_cauchy_schwarz l u v :
  (lsum l (fun i => u i * v i)) * (lsum l (fun i => u i * v i)) <=
  (lsum l (fun i => u i * u i)) * (lsum l (fun i => v i * v i)).
Proof.
  induction l as [|i l IH]; cbn [lsum]; [lra|].
  set (a := lsum l (fun i => u i * v i)) in *. set (b := lsum l (fun i => u i * u i)) in *.
  set (c := lsum l (fun i => v i * v i)) in *.
  assert (Hb : 0 <= b) by (apply lsum_nonneg; intros; nra).
  assert (Hc : 0 <= c) by (apply lsum_nonneg; intros; nra).
  (* 2 a u v <= b v^2 + c u^2 since a^2 <= b c *)
  set (p := u i) in *. set (q := v i) in *.
  assert (K : 2 * a * (p * q) <= b * (q * q) + c * (p * p)).
  { destruct (Rle_dec (2 * a * (p * q)) (b * (q * q) + c * (p * p))) as [H|H]; [exact H|]. exfalso.
    apply Rnot_le_lt in H. pose proof (Rle_0_sqr p) as Hp. pose proof (Rle_0_sqr q) as Hq. unfold Rsqr in Hp, Hq.
    assert (0 <= b * (q * q) + c * (p * p)) by (apply Rplus_le_le_0_compat; now apply Rmult_le_pos).
    assert (Sq : (b * (q * q) + c * (p * p)) * (b * (q * q) + c * (p * p)) < (2 * a * (p * q)) * (2 * a * (p * q))) by (apply Rmult_le_0_lt_compat; assumption).
    pose proof (Rle_0_sqr (b * (q * q) - c * (p * p))) as Hd. unfold Rsqr in Hd.
    assert ((2 * a * (p * q)) * (2 * a * (p * q)) <= 4 * (b * c) * ((p * q) * (p * q))).
    { replace ((2 * a * (p * q)) * (2 * a * (p * q))) with (4 * (a * a) * ((p * q) * (p * q))) by ring.
      apply Rmult_le_compat_r; [apply Rle_0_sqr|]. lra. }
    lra. }
  nra.
Qed.

(** *** ranges *)

Lemma rsum_empty lo hi f : (hi <= lo)%Z -> rsum lo hi f = 0.
Proof. intros. unfold rsum. now rewrite zseq_empty by assumption. Qed.

Lemma rsum_last lo hi f : (lo <= hi)%Z -> rsum lo (hi + 1) f = rsum lo hi f + f hi.
Proof.
  intros. unfold rsum. rewrite (zseq_app lo hi (hi + 1)) by lia. rewrite lsum_app.
  rewrite (zseq_cons hi) by lia. rewrite (zseq_empty (hi + 1)) by lia. cbn [lsum]. lra.
Qed.

Lemma rsum_first lo hi f : (lo < hi)%Z -> rsum lo hi f = f lo + rsum (lo + 1) hi f.
Proof. intros. unfold rsum. now rewrite zseq_cons by assumption. Qed.

Lemma rsum_split lo mid hi f : (lo <= mid <= hi)%Z -> rsum lo hi f = rsum lo mid f + rsum mid hi f.
Proof. intros. unfold rsum. rewrite (zseq_app lo mid hi) by assumption. apply lsum_app. Qed.

Lemma rsum_ext lo hi f g : (forall i, (lo <= i < hi)%Z -> f i = g i) -> rsum lo hi f = rsum lo hi g.
Proof. intros H. apply lsum_ext. intros i Hi. apply H. now apply In_zseq. Qed.

Lemma rsum_0 lo hi f : (forall i, (lo <= i < hi)%Z -> f i = 0) -> rsum lo hi f = 0.
Proof. intros H. apply lsum_0. intros i Hi. apply H. now apply In_zseq. Qed.

Lemma rsum_shift k lo hi f : rsum lo hi (fun i => f (i + k)%Z) = rsum (lo + k) (hi + k) f.
Proof.
  unfold rsum, zseq. replace (hi + k - (lo + k))%Z with (hi - lo)%Z by lia.
  generalize (Z.to_nat (hi - lo)) as n. intros n. revert lo. induction n as [|n IH]; intros lo; cbn [zseq_n lsum]; [reflexivity|].
  rewrite IH. replace (lo + 1 + k)%Z with (lo + k + 1)%Z by lia. reflexivity.
Qed.

Lemma rsum_swap a b c d f :
  rsum a b (fun i => rsum c d (fun j => f i j)) = rsum c d (fun j => rsum a b (fun i => f i j)).
Proof. apply lsum_swap. Qed.

Lemma rsum_delta lo hi k f : (lo <= k < hi)%Z -> (forall i, (lo <= i < hi)%Z -> i <> k -> f i = 0) -> rsum lo hi f = f k.
Proof.
  intros Hk H. apply lsum_delta; [apply NoDup_zseq|now apply In_zseq|].
  intros i Hi. apply H. now apply In_zseq.
Qed.

(** A loop that accumulates a sum. *)
Lemma sum_loop lo hi (body : Z -> R -> res R) f a :
  (lo <= hi)%Z -> (forall i s, (lo <= i < hi)%Z -> body i s = Ok (s + f i)) ->
  for_up lo hi body a = Ok (a + rsum lo hi f).
Proof.
  intros Hle H.
  assert (W : wp (for_up lo hi body a) (fun s => s = a + rsum lo hi f)).
  { apply wp_for_up with (I := fun i s => s = a + rsum lo i f); auto.
    - rewrite rsum_empty by lia. lra.
    - intros i s Hi ->. rewrite H by assumption. cbn [wp]. rewrite rsum_last by lia. lra. }
  apply wp_inv in W as (s & -> & ->). reflexivity.
Qed.

Lemma diff_loop lo hi (body : Z -> R -> res R) f a :
  (lo <= hi)%Z -> (forall i s, (lo <= i < hi)%Z -> body i s = Ok (s - f i)) ->
  for_up lo hi body a = Ok (a - rsum lo hi f).
Proof.
  intros Hle H. rewrite (sum_loop lo hi body (fun i => - f i)).
  - unfold rsum. rewrite lsum_opp. reflexivity.
  - assumption.
  - intros. rewrite H by assumption. reflexivity.
Qed.
