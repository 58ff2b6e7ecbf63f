(** What an exact TQ factorisation says about the working set: the null space,
    independence of a further constraint or bound, nonsingular factors. *)
From Verif Require Import Base Types Num Options Indexlist IndexlistProofs Loops RSum LinSpec SafeLib SubjectTo SubjectToProofs SubjectToProofs2
  Flipper PropFlipper Matrices MatLib MatSafe LinAlg PropLinAlg QProblemB QPBSafe QPBSafe2 QPBX1 QPBX2 QPBX3 QPBX4 QProblem QPX1 QPX2 QPX3 QPX4 QPX5 QPX6 QPX8 QPX9 QPX11.
Local Open Scope R_scope.

Lemma comb_dot l m a v F : NoDup l -> orth l m F -> lsum l (fun u => a u * v u) = rsum 0 m (fun q => comb l a F q * comb l v F q).
Proof.
  intros ND (A & B). symmetry. unfold comb, rsum.
  transitivity (lsum (zseq 0 m) (fun q => lsum l (fun u => lsum l (fun w => (a u * v w) * (F u q * F w q))))).
  { apply lsum_ext. intros q Hq. rewrite <- lsum_scal_r. apply lsum_ext. intros u Hu. rewrite <- lsum_scal. apply lsum_ext. intros; ring. }
  rewrite lsum_swap. apply lsum_ext. intros u Hu. rewrite lsum_swap.
  rewrite (lsum_delta l u); auto.
  - rewrite lsum_scal. pose proof (B u u Hu Hu) as E. unfold rsum in E. rewrite E. unfold delta. rewrite Z.eqb_refl. ring.
  - intros w Hw Nw. rewrite lsum_scal. pose proof (B u w Hu Hw) as E. unfold rsum in E. rewrite E. unfold delta.
    destruct (Z.eqb_spec u w); [congruence|ring].
Qed.
Lemma comb_back l m v F u : NoDup l -> orth l m F -> In u l -> v u = rsum 0 m (fun q => comb l v F q * F u q).
Proof.
  intros ND (A & B) Hu. symmetry. unfold comb, rsum.
  transitivity (lsum (zseq 0 m) (fun q => lsum l (fun w => v w * (F w q * F u q)))).
  { apply lsum_ext. intros q Hq. rewrite <- lsum_scal_r. apply lsum_ext. intros; ring. }
  rewrite lsum_swap. rewrite (lsum_delta l u); auto.
  - rewrite lsum_scal. pose proof (B u u Hu Hu) as E. unfold rsum in E. rewrite E. unfold delta. rewrite Z.eqb_refl. ring.
  - intros w Hw Nw. rewrite lsum_scal. pose proof (B w u Hw Hu) as E. unfold rsum in E. rewrite E. unfold delta.
    destruct (Z.eqb_spec w u); [congruence|ring].
Qed.

Section Null.
Variables (n sT : Z) (l k : list Z) (Am : Z -> Z -> R) (Q T : list R).
Hypothesis ND : NoDup l.
Hypothesis TQ : tqf n sT l k Am Q T.

(** v on the free variables leaves all active constraints unchanged *)
Definition inkernel (v : Z -> R) : Prop := forall c, In c k -> lsum l (fun u => Am c u * v u) = 0.

Lemma kernel_cols v : inkernel v <-> forall p, (zlen l - zlen k <= p < zlen l)%Z -> comb l v (ce n Q) p = 0.
Proof using ND TQ.
  destruct TQ as (LE & OQ & AT & DG). split.
  - intros K. assert (P : forall i, (0 <= i)%Z -> (i <= zlen k)%Z -> forall p, (zlen l - i <= p < zlen l)%Z -> comb l v (ce n Q) p = 0).
    { intros i Hi. pattern i. apply natlike_ind; [intros; lia| |exact Hi]. clear i Hi. intros i Hi IH Hk p Hp.
      destruct (Z.eq_dec p (zlen l - 1 - i)) as [->|]; [|apply IH; lia].
      specialize (K (zz k i) ltac:(apply zn_In; lia)). rewrite (comb_dot l (zlen l) _ _ (ce n Q)) in K by auto.
      rewrite (rsum_delta 0 (zlen l) (zlen l - 1 - i)) in K; [|lia|].
      - rewrite AT in K by lia. destruct (Z.leb_spec (zlen l - 1) (i + (zlen l - 1 - i))); [|lia].
        replace (sT - zlen l + (zlen l - 1 - i))%Z with (sT - 1 - i)%Z in K by lia. specialize (DG i ltac:(lia)).
        apply Rmult_integral in K as [K|K]; [contradiction|exact K].
      - intros q Hq Nq. rewrite AT by lia. destruct (Z.leb_spec (zlen l - 1) (i + q)) as [G|G]; [|ring].
        rewrite IH by lia. ring. }
    intros p Hp. pose proof (zlen_nonneg k). apply (P (zlen k)); lia.
  - intros Z0 c Hc. apply In_zn with (d := 0%Z) in Hc as (i & Hi & <-). rewrite (comb_dot l (zlen l) _ _ (ce n Q)) by auto. apply rsum_0. intros p Hp. rewrite AT by lia.
    destruct (Z.leb_spec (zlen l - 1) (i + p)); [|ring]. rewrite Z0 by lia. ring.
Qed.

(** the first nZ columns of Q span the null space *)
Lemma kernel_span v : inkernel v <-> exists c, forall u, In u l -> v u = rsum 0 (zlen l - zlen k) (fun p => c p * ce n Q u p).
Proof using ND TQ.
  pose proof TQ as (LE & OQ & AT & DG). pose proof (zlen_nonneg k). rewrite kernel_cols. split.
  - intros Z0. exists (comb l v (ce n Q)). intros u Hu. rewrite (comb_back l (zlen l) v (ce n Q) u) at 1 by auto.
    rewrite (rsum_split 0 (zlen l - zlen k)) by lia. rewrite (rsum_0 (zlen l - zlen k)); [ring|]. intros p Hp. rewrite Z0 by lia. ring.
  - intros (c & E) p Hp. unfold comb. rewrite (lsum_ext l _ (fun u => rsum 0 (zlen l - zlen k) (fun q => c q * (ce n Q u q * ce n Q u p)))).
    + unfold rsum. rewrite lsum_swap. apply lsum_0. intros q Hq. apply In_zseq in Hq. rewrite lsum_scal. destruct OQ as (OQ & _). rewrite OQ by lia. unfold delta. destruct (Z.eqb_spec q p); [lia|ring].
    + intros u Hu. rewrite E by auto. unfold rsum. rewrite <- lsum_scal_r. apply lsum_ext. intros; ring.
Qed.
Lemma kernel_col p : (0 <= p < zlen l - zlen k)%Z -> inkernel (fun u => ce n Q u p).
Proof using ND TQ.
  intros Hp. apply kernel_span. exists (fun q => delta q p). intros u Hu. rewrite (rsum_delta 0 _ p); [|lia|].
  - unfold delta. rewrite Z.eqb_refl. ring.
  - intros q Hq Nq. unfold delta. destruct (Z.eqb_spec q p); [contradiction|ring].
Qed.

(** a constraint is independent of the active ones iff some direction in their
    null space changes it *)
Lemma indep_iff a : (exists p, (0 <= p < zlen l - zlen k)%Z /\ comb l a (ce n Q) p <> 0) <->
  exists v, inkernel v /\ lsum l (fun u => a u * v u) <> 0.
Proof using ND TQ.
  split.
  - intros (p & Hp & Np). exists (fun u => ce n Q u p). split; [now apply kernel_col|exact Np].
  - intros (v & K & Nv). destruct (all_zero_dec (zlen l - zlen k) (comb l a (ce n Q))) as [E|Z0]; [exact E|]. exfalso. apply Nv.
    pose proof (proj1 (kernel_cols v) K) as K1. destruct TQ as (LE & OQ & _). pose proof (zlen_nonneg k). rewrite (comb_dot l (zlen l) _ _ (ce n Q)) by auto. apply rsum_0. intros p Hp.
    destruct (Z_lt_le_dec p (zlen l - zlen k)); [rewrite Z0 by lia|rewrite K1 by lia]; ring.
Qed.
Lemma indep_bound_iff u : In u l -> (exists p, (0 <= p < zlen l - zlen k)%Z /\ ce n Q u p <> 0) <-> exists v, inkernel v /\ v u <> 0.
Proof using ND TQ.
  intros Hu. transitivity (exists p, (0 <= p < zlen l - zlen k)%Z /\ comb l (fun v => delta v u) (ce n Q) p <> 0).
  { split; intros (p & Hp & Np); exists p; (split; [exact Hp|]); rewrite comb_delta in *; auto. }
  rewrite indep_iff. assert (E : forall v, lsum l (fun w => delta w u * v w) = v u).
  { intros v. rewrite (lsum_delta l u); auto; [unfold delta; rewrite Z.eqb_refl; ring|]. intros w Hw Nw. unfold delta. destruct (Z.eqb_spec w u); [contradiction|ring]. }
  split; intros (v & K & Nv); exists v; rewrite E in *; auto.
Qed.

(** every nonsingular triangle is the factor of some Hessian *)
Lemma rreg_rinv (Ra : list R) : rreg n (zlen l - zlen k) Ra -> exists Hm, rinv n (zlen l - zlen k) l Hm Q Ra.
Proof using ND TQ.
  intros (DG & SZ). destruct TQ as (LE & OQ & _). pose proof (zlen_nonneg k). set (nz := (zlen l - zlen k)%Z) in *.
  set (G := fun a b => rsum 0 nz (fun j => triu Ra n j a * triu Ra n j b)).
  exists (fun u v => rsum 0 nz (fun a => rsum 0 nz (fun b => ce n Q u a * G a b * ce n Q v b))).
  split; [split; [|exact DG]|exact SZ].
  intros p q Hp Hq. change (G p q = zhz l (fun u v => rsum 0 nz (fun a => rsum 0 nz (fun b => ce n Q u a * G a b * ce n Q v b))) (ce n Q) p q). unfold zhz.
  transitivity (lsum l (fun u => rsum 0 nz (fun a => ce n Q u p * ce n Q u a * G a q))).
  - unfold rsum. rewrite lsum_swap. change (G p q = rsum 0 nz (fun a => lsum l (fun u => ce n Q u p * ce n Q u a * G a q))). rewrite (rsum_delta 0 nz p); [|lia|].
    + rewrite lsum_scal_r. destruct OQ as (OQ & _). rewrite OQ by lia. unfold delta. rewrite Z.eqb_refl. ring.
    + intros a Ha Na. rewrite lsum_scal_r. destruct OQ as (OQ & _). rewrite OQ by lia. unfold delta. destruct (Z.eqb_spec p a); [congruence|ring].
  - apply lsum_ext. intros u Hu. transitivity (rsum 0 nz (fun a => rsum 0 nz (fun b => lsum l (fun v => ce n Q u p * ce n Q u a * G a b * (ce n Q v b * ce n Q v q))))).
    + apply rsum_ext. intros a Ha. rewrite (rsum_delta 0 nz q); [|lia|].
      * rewrite lsum_scal. destruct OQ as (OQ & _). rewrite OQ by lia. unfold delta. rewrite Z.eqb_refl. ring.
      * intros b Hb Nb. rewrite lsum_scal. destruct OQ as (OQ & _). rewrite OQ by lia. unfold delta. destruct (Z.eqb_spec b q); [contradiction|ring].
    + unfold rsum. rewrite (lsum_ext l (fun v => _ * _ * _) (fun v => lsum (zseq 0 nz) (fun a => lsum (zseq 0 nz) (fun b => ce n Q u p * ce n Q u a * G a b * (ce n Q v b * ce n Q v q))))).
      * symmetry. rewrite lsum_swap. apply lsum_ext. intros a Ha. now rewrite lsum_swap.
      * intros v Hv. rewrite <- lsum_scal, <- lsum_scal_r. apply lsum_ext. intros a Ha. rewrite <- lsum_scal, <- lsum_scal_r. apply lsum_ext. intros b Hb. ring.
Qed.
End Null.
