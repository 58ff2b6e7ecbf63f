(** Exchanging an active constraint or bound for a dependent one: what keeps the
    working set independent, and the null space the same. *)
From Verif Require Import Base Types Num Options Indexlist IndexlistProofs Loops RSum LinSpec SafeLib SubjectTo SubjectToProofs SubjectToProofs2
  Flipper PropFlipper Matrices MatLib MatSafe CsLib PropDense PropSparse PropSparse2 LinAlg PropLinAlg QProblemB QPBSafe QPBSafe2 QPBX1 QPBX2 QPBX3 QPBX4 QProblem QPX1 QPX2 QPX3 QPX4 QPX5 QPX6 QPX12.
Local Open Scope R_scope.

Lemma comb_lin l k F x (Am : Z -> Z -> R) a q : comb l (fun u => a u - lsum k (fun c => x c * Am c u)) F q = comb l a F q - lsum k (fun c => x c * comb l (Am c) F q).
Proof.
  unfold comb. transitivity (lsum l (fun u => a u * F u q) - lsum l (fun u => lsum k (fun c => x c * (Am c u * F u q)))).
  - rewrite <- lsum_minus. apply lsum_ext. intros u _. rewrite Rmult_minus_distr_r. f_equal. rewrite <- lsum_scal_r. apply lsum_ext. intros; ring.
  - f_equal. rewrite lsum_swap. apply lsum_ext. intros c _. now rewrite lsum_scal.
Qed.

Section Exch.
Variables (n sT : Z) (l k : list Z) (Am : Z -> Z -> R) (Q T : list R).
Hypothesis ND : NoDup l.
Hypothesis TQ : tqf n sT l k Am Q T.
Notation nz := (zlen l - zlen k)%Z.

(** a vector without component in the range space *)
Lemma residual_zero d : (forall p, (0 <= p < zlen l)%Z -> comb l d (ce n Q) p = 0) -> forall u, In u l -> d u = 0.
Proof using ND TQ.
  intros Z0 u Hu. rewrite (comb_back l (zlen l) d (ce n Q) u ND); [|apply TQ|exact Hu]. apply rsum_0. intros q Hq. rewrite Z0 by exact Hq. ring.
Qed.

Lemma null_col c p : In c k -> (0 <= p < nz)%Z -> comb l (Am c) (ce n Q) p = 0.
Proof using ND TQ. intros Hc Hp. exact (kernel_col n sT l k Am Q T ND TQ p Hp c Hc). Qed.

(** the combination x of the active constraints agrees with a on the range space *)
Definition range_fit (a x : Z -> R) : Prop := forall p, (nz <= p < zlen l)%Z -> comb l (fun u => a u - lsum k (fun c => x c * Am c u)) (ce n Q) p = 0.

Lemma dependent_eq a x : range_fit a x -> (forall p, (0 <= p < nz)%Z -> comb l a (ce n Q) p = 0) -> forall u, In u l -> a u = lsum k (fun c => x c * Am c u).
Proof using ND TQ.
  intros RF D u Hu. apply Rminus_diag_uniq. pattern u. apply (residual_zero (fun u => a u - lsum k (fun c => x c * Am c u))); [|exact Hu].
  intros p Hp. destruct (Z_lt_le_dec p nz) as [Lp|Lp]; [|apply RF; lia]. rewrite comb_lin, D by lia. rewrite lsum_0; [ring|]. intros c Hc. rewrite null_col by (auto; lia). ring.
Qed.

(** ** removing the constraint c0 *)
Section C.
Variables (k' : list Z) (c0 : Z) (Q' T' : list R).
Hypothesis NDk : NoDup k.
Hypothesis In0 : In c0 k.
Hypothesis K' : forall c, In c k' <-> In c k /\ c <> c0.
Hypothesis L' : zlen k' = (zlen k - 1)%Z.
Hypothesis TQ' : tqf n sT l k' Am Q' T'.
Hypothesis COL : forall v q, In v l -> (0 <= q < nz)%Z -> ce n Q' v q = ce n Q v q.

Lemma newcol_C : lsum l (fun u => Am c0 u * ce n Q' u nz) <> 0.
Proof.
  intros Z0. assert (LE : (zlen k <= zlen l)%Z) by apply TQ. pose proof (zlen_nonneg k) as Pk.
  assert (Pk1 : (0 < zlen k)%Z) by (destruct k; [destruct In0|rewrite zlen_cons; pose proof (zlen_nonneg l0); lia]).
  assert (IK : inkernel l k Am (fun u => ce n Q' u nz)).
  { intros c Hc. destruct (Z.eq_dec c c0) as [->|Ne]; [exact Z0|]. apply (kernel_col n sT l k' Am Q' T' ND TQ'); [lia|]. now apply K'. }
  apply (kernel_span n sT l k Am Q T ND TQ) in IK as (c & E). destruct TQ' as (_ & (O & _) & _).
  assert (N1 : lsum l (fun u => ce n Q' u nz * ce n Q' u nz) = 1) by (rewrite O by lia; apply delta_refl).
  assert (N0 : lsum l (fun u => ce n Q' u nz * ce n Q' u nz) = 0); [|lra].
  transitivity (lsum l (fun u => rsum 0 nz (fun p => c p * (ce n Q' u p * ce n Q' u nz)))).
  - apply lsum_ext. intros u Hu. rewrite (E u Hu) at 1. rewrite <- rsum_scal_r. apply rsum_ext. intros p Hp. rewrite (COL u p) by auto. ring.
  - unfold rsum. rewrite lsum_swap. apply lsum_0. intros p Hp. apply In_zseq in Hp. rewrite lsum_scal, O by lia. unfold delta. destruct (Z.eqb_spec p nz); [lia|ring].
Qed.

Lemma exchange_C a x : range_fit a x -> x c0 <> 0 -> exists p, (0 <= p < nz + 1)%Z /\ comb l a (ce n Q') p <> 0.
Proof.
  intros RF Nx. assert (LE : (zlen k <= zlen l)%Z) by apply TQ.
  destruct (all_zero_dec nz (fun p => comb l a (ce n Q) p)) as [(p & Hp & Np)|D].
  - exists p. split; [lia|]. rewrite (comb_ext l a (ce n Q') (ce n Q)); [exact Np|]. intros v Hv. apply COL; auto.
  - exists nz. split; [lia|]. pose proof (dependent_eq a x RF D) as E. intros Z0. apply Nx. apply (Rmult_eq_reg_r (lsum l (fun u => Am c0 u * ce n Q' u nz))); [|apply newcol_C].
    rewrite Rmult_0_l. rewrite <- Z0. unfold comb.
    transitivity (lsum k (fun c => x c * lsum l (fun u => Am c u * ce n Q' u nz))).
    + symmetry. apply (lsum_delta k c0 (fun c => x c * lsum l (fun u => Am c u * ce n Q' u nz))); auto. intros c Hc Ne. rewrite (kernel_col n sT l k' Am Q' T' ND TQ' nz); [ring|lia|]. now apply K'.
    + transitivity (lsum k (fun c => lsum l (fun u => x c * Am c u * ce n Q' u nz))).
      * apply lsum_ext. intros c _. rewrite <- lsum_scal. apply lsum_ext. intros; ring.
      * rewrite lsum_swap. apply lsum_ext. intros u Hu. rewrite (E u Hu), <- lsum_scal_r. apply lsum_ext. intros; ring.
Qed.

(** in the dependent case the null space afterwards is the old one *)
Lemma kernel_back_C a x v : range_fit a x -> x c0 <> 0 -> (forall p, (0 <= p < nz)%Z -> comb l a (ce n Q) p = 0) ->
  inkernel l k' Am v -> lsum l (fun u => a u * v u) = 0 -> inkernel l k Am v.
Proof.
  intros RF Nx D IK Z0 c Hc. destruct (Z.eq_dec c c0) as [->|Ne]; [|apply IK; now apply K'].
  pose proof (dependent_eq a x RF D) as E. apply (Rmult_eq_reg_l (x c0)); [|exact Nx]. rewrite Rmult_0_r, <- Z0.
  transitivity (lsum k (fun c => x c * lsum l (fun u => Am c u * v u))).
  - symmetry. apply (lsum_delta k c0 (fun c => x c * lsum l (fun u => Am c u * v u))); auto. intros c Hc' Ne. rewrite IK; [ring|]. now apply K'.
  - transitivity (lsum k (fun c => lsum l (fun u => x c * Am c u * v u))).
    + apply lsum_ext. intros c _. rewrite <- lsum_scal. apply lsum_ext. intros; ring.
    + rewrite lsum_swap. apply lsum_ext. intros u Hu. rewrite (E u Hu), <- lsum_scal_r. apply lsum_ext. intros; ring.
Qed.
End C.

(** ** freeing the variable j *)
Section B.
Variables (j : Z) (Q' T' : list R).
Hypothesis NI : ~ In j l.
Hypothesis TQ' : tqf n sT (l ++ [j]) k Am Q' T'.
Hypothesis COL : forall q, (0 <= q < nz)%Z -> ce n Q' j q = 0 /\ forall v, In v l -> ce n Q' v q = ce n Q v q.

Let EL : zlen (l ++ [j]) = (zlen l + 1)%Z.
Proof. rewrite zlen_app. reflexivity. Qed.
Let NDj : NoDup (l ++ [j]).
Proof. apply (Permutation_NoDup (l := j :: l)); [apply Permutation_cons_append|now constructor]. Qed.
Lemma lsum_snoc f : lsum (l ++ [j]) f = lsum l f + f j.
Proof. rewrite lsum_app. cbn [lsum]. ring. Qed.

Lemma newcol_B : ce n Q' j nz <> 0.
Proof.
  intros Z0. assert (LE : (zlen k <= zlen l)%Z) by apply TQ. pose proof (zlen_nonneg k) as Pk.
  assert (IK : inkernel l k Am (fun u => ce n Q' u nz)).
  { intros c Hc. assert (X := kernel_col n sT (l ++ [j]) k Am Q' T' NDj TQ' nz ltac:(lia) c Hc). rewrite lsum_snoc, Z0, Rmult_0_r, Rplus_0_r in X. exact X. }
  apply (kernel_span n sT l k Am Q T ND TQ) in IK as (c & E). destruct TQ' as (_ & (O & _) & _).
  assert (N1 : lsum (l ++ [j]) (fun u => ce n Q' u nz * ce n Q' u nz) = 1) by (rewrite O by lia; apply delta_refl).
  assert (N0 : lsum (l ++ [j]) (fun u => ce n Q' u nz * ce n Q' u nz) = 0); [|lra].
  transitivity (lsum (l ++ [j]) (fun u => rsum 0 nz (fun p => c p * (ce n Q' u p * ce n Q' u nz)))).
  - rewrite !lsum_snoc. f_equal.
    + apply lsum_ext. intros u Hu. rewrite (E u Hu) at 1. rewrite <- rsum_scal_r. apply rsum_ext. intros p Hp. rewrite (proj2 (COL p Hp)) by auto. ring.
    + rewrite Z0, Rmult_0_r. symmetry. apply rsum_0. intros; ring.
  - unfold rsum. rewrite lsum_swap. apply lsum_0. intros p Hp. apply In_zseq in Hp. rewrite lsum_scal, O by lia. unfold delta. destruct (Z.eqb_spec p nz); [lia|ring].
Qed.

Lemma dot_B a x v : range_fit a x -> (forall p, (0 <= p < nz)%Z -> comb l a (ce n Q) p = 0) -> inkernel (l ++ [j]) k Am v ->
  lsum (l ++ [j]) (fun u => a u * v u) = (a j - lsum k (fun c => x c * Am c j)) * v j.
Proof.
  intros RF D IK. pose proof (dependent_eq a x RF D) as E. rewrite lsum_snoc.
  assert (S : lsum l (fun u => a u * v u) = lsum k (fun c => x c * lsum l (fun u => Am c u * v u))).
  { symmetry. transitivity (lsum k (fun c => lsum l (fun u => x c * Am c u * v u))).
    - apply lsum_ext. intros c _. rewrite <- lsum_scal. apply lsum_ext. intros; ring.
    - rewrite lsum_swap. apply lsum_ext. intros u Hu. rewrite (E u Hu), <- lsum_scal_r. apply lsum_ext. intros; ring. }
  rewrite S. rewrite Rmult_minus_distr_r, <- lsum_scal_r.
  replace (lsum k (fun c => x c * lsum l (fun u => Am c u * v u))) with (- lsum k (fun c => x c * Am c j * v j)); [ring|].
  rewrite <- lsum_opp. apply lsum_ext. intros c Hc. specialize (IK c Hc). rewrite lsum_snoc in IK. nra.
Qed.

Lemma exchange_B a x : range_fit a x -> a j - lsum k (fun c => x c * Am c j) <> 0 -> exists p, (0 <= p < nz + 1)%Z /\ comb (l ++ [j]) a (ce n Q') p <> 0.
Proof.
  intros RF Nx. assert (LE : (zlen k <= zlen l)%Z) by apply TQ.
  destruct (all_zero_dec nz (fun p => comb l a (ce n Q) p)) as [(p & Hp & Np)|D].
  - exists p. split; [lia|]. unfold comb. rewrite lsum_snoc. destruct (COL p Hp) as (-> & CV). rewrite Rmult_0_r, Rplus_0_r.
    rewrite (lsum_ext l _ (fun v => a v * ce n Q v p)); [exact Np|]. intros v Hv. now rewrite CV.
  - exists nz. split; [lia|]. unfold comb. rewrite (dot_B a x _ RF D); [|apply (kernel_col n sT _ k Am Q' T' NDj TQ'); lia].
    apply Rmult_integral_contrapositive_currified; [exact Nx|apply newcol_B].
Qed.

Lemma kernel_back_B a x v : range_fit a x -> a j - lsum k (fun c => x c * Am c j) <> 0 -> (forall p, (0 <= p < nz)%Z -> comb l a (ce n Q) p = 0) ->
  inkernel (l ++ [j]) k Am v -> lsum (l ++ [j]) (fun u => a u * v u) = 0 -> v j = 0 /\ inkernel l k Am v.
Proof.
  intros RF Nx D IK Z0. rewrite (dot_B a x v RF D IK) in Z0. assert (Z1 : v j = 0) by (destruct (Rmult_integral _ _ Z0); [contradiction|assumption]).
  split; [exact Z1|]. intros c Hc. specialize (IK c Hc). rewrite lsum_snoc, Z1, Rmult_0_r, Rplus_0_r in IK. exact IK.
Qed.
End B.
End Exch.

(** ** The reduced Hessian on a subspace of the span *)
Lemma zhz_app_zero lf ex M F a b : (forall u, In u ex -> F u a = 0 /\ F u b = 0) -> zhz (lf ++ ex) M F a b = zhz lf M F a b.
Proof.
  intros Z0. unfold zhz. rewrite lsum_app. rewrite (lsum_0 ex), Rplus_0_r.
  - apply lsum_ext. intros u Hu. rewrite lsum_app, (lsum_0 ex), Rplus_0_r; [reflexivity|]. intros v Hv. destruct (Z0 v Hv) as (_ & ->). ring.
  - intros u Hu. apply lsum_0. intros v Hv. destruct (Z0 u Hu) as (-> & _). ring.
Qed.

Lemma zhz_span l M F V c nz a b : (forall u, In u l -> V u a = rsum 0 nz (fun p => c a p * F u p) /\ V u b = rsum 0 nz (fun p => c b p * F u p)) ->
  zhz l M V a b = rsum 0 nz (fun p => rsum 0 nz (fun q => c a p * c b q * zhz l M F p q)).
Proof.
  intros E. unfold zhz. set (t := fun u v p q => (c a p * F u p) * M u v * (c b q * F v q)). set (r := zseq 0 nz).
  transitivity (lsum l (fun u => lsum l (fun v => lsum r (fun p => lsum r (fun q => t u v p q))))).
  - apply lsum_ext. intros u Hu. apply lsum_ext. intros v Hv. destruct (E u Hu) as (-> & _). destruct (E v Hv) as (_ & ->).
    unfold rsum. fold r. rewrite <- !lsum_scal_r. apply lsum_ext. intros p Hp. rewrite <- lsum_scal. apply lsum_ext. intros q Hq. unfold t. ring.
  - transitivity (lsum r (fun p => lsum r (fun q => lsum l (fun u => lsum l (fun v => t u v p q))))).
    + transitivity (lsum l (fun u => lsum r (fun p => lsum r (fun q => lsum l (fun v => t u v p q))))).
      * apply lsum_ext. intros u Hu. rewrite lsum_swap. apply lsum_ext. intros p Hp. now rewrite lsum_swap.
      * rewrite lsum_swap. apply lsum_ext. intros p Hp. now rewrite lsum_swap.
    + unfold rsum. fold r. apply lsum_ext. intros p Hp. apply lsum_ext. intros q Hq. rewrite <- lsum_scal. apply lsum_ext. intros u Hu. rewrite <- lsum_scal.
      apply lsum_ext. intros v Hv. unfold t. ring.
Qed.

(** a factor that is exact only on the leading block still gives the right reduced
    Hessian on every subspace of the span of the leading columns *)
Lemma span_factor n nz lp ex lf Hm Hm' (Q' Q'' R0 R1 : list R) c : (0 <= nz)%Z -> Permutation lp (lf ++ ex) ->
  factor n nz R0 (zhz lp Hm (ce n Q')) -> factor n (nz + 1) R1 (zhz lp Hm' (ce n Q')) ->
  (forall p q, (0 <= p < nz)%Z -> (0 <= q < nz)%Z -> ce n R1 p q = ce n R0 p q) ->
  (forall a u, (0 <= a < nz)%Z -> In u lf -> ce n Q'' u a = rsum 0 nz (fun p => c a p * ce n Q' u p)) ->
  (forall a u, (0 <= a < nz)%Z -> In u ex -> rsum 0 nz (fun p => c a p * ce n Q' u p) = 0) ->
  forall a b, (0 <= a < nz)%Z -> (0 <= b < nz)%Z -> zhz lf Hm' (ce n Q'') a b = zhz lf Hm (ce n Q'') a b.
Proof.
  intros Nz P (G0 & _) (G1 & _) LB SP EX a b Ha Hb. set (V := fun u a => rsum 0 nz (fun p => c a p * ce n Q' u p)).
  assert (X : forall M, zhz lf M (ce n Q'') a b = rsum 0 nz (fun p => rsum 0 nz (fun q => c a p * c b q * zhz lp M (ce n Q') p q))).
  { intros M. rewrite (zhz_ext lf M (ce n Q'') V) by (intros; unfold V; apply SP; auto).
    rewrite <- (zhz_app_zero lf ex) by (intros; unfold V; split; apply EX; auto). rewrite (zhz_perm (lf ++ ex) lp) by now apply Permutation_sym.
    apply zhz_span. intros; split; reflexivity. }
  rewrite !X. apply rsum_ext. intros p Hp. apply rsum_ext. intros q Hq. f_equal. rewrite <- (G1 p q) by lia. rewrite <- (G0 p q) by lia.
  rewrite rsum_last by lia. assert (TZ : triu R1 n nz p = 0) by (unfold triu; destruct (Z.leb_spec nz p); [lia|reflexivity]). rewrite TZ, Rmult_0_l, Rplus_0_r.
  apply rsum_ext. intros k Hk. unfold triu. destruct (k <=? p)%Z, (k <=? q)%Z; try (rewrite ?Rmult_0_l, ?Rmult_0_r; reflexivity).
  f_equal; [exact (LB k p Hk Hp)|exact (LB k q Hk Hq)].
Qed.

Lemma kernel_coef n sT l k Am (Q T : list R) v : NoDup l -> tqf n sT l k Am Q T -> inkernel l k Am v ->
  forall u, In u l -> v u = rsum 0 (zlen l - zlen k) (fun p => comb l v (ce n Q) p * ce n Q u p).
Proof.
  intros ND TQ IK u Hu. pose proof (proj1 (kernel_cols n sT l k Am Q T ND TQ v) IK) as Z0. destruct TQ as (LE & OQ & _). pose proof (zlen_nonneg k).
  rewrite (comb_back l (zlen l) v (ce n Q) u) at 1 by auto.
  rewrite (rsum_split 0 (zlen l - zlen k)) by lia. rewrite (rsum_0 (zlen l - zlen k)); [ring|]. intros p Hp. rewrite Z0 by lia. ring.
Qed.
