(** The invariant of the Schur complement: it is factorised and represents the
    updates of the factorised KKT matrix. *)
From Verif Require Import Base Types Num RSum LinSpec LinAlg PropLinAlg QPX7 Schur SchurM Det SchurF SchurA SchurB SchurS SchurU SchurC SchurD SchurE.
Local Open Scope R_scope.

Section I.
Variables eps zero infty : R.
Hypothesis zero_0 : zero = 0.
Notation N := (RNumT eps zero infty).
Notation arr := (list R).
Notation schur := (Schur.schur N).
Notation Sf := (Sf eps zero infty). Notation Qf := (Qf eps zero infty). Notation Rf := (Rf eps zero infty).
Notation colsum := (colsum eps zero infty). Notation ir_in := (ir_in eps zero infty).

(** the solver solves with the symmetric nonsingular matrix K, or fails *)
Record kkt (K : Z -> Z -> R) (f : factor N) : Prop := {
  k_dim : (0 <= f_dim f)%Z;
  k_sym : forall i j, (0 <= i < f_dim f)%Z -> (0 <= j < f_dim f)%Z -> K i j = K j i;
  k_inj : forall v, (forall i, (0 <= i < f_dim f)%Z -> rsum 0 (f_dim f) (fun j => K i j * v j) = 0) -> forall i, (0 <= i < f_dim f)%Z -> v i = 0;
  k_sol : forall rhs sol : arr, zlen rhs = f_dim f -> f_solve f rhs = Some sol -> zlen sol = f_dim f /\
     forall i, (0 <= i < f_dim f)%Z -> rsum 0 (f_dim f) (fun j => K i j * zn 0 sol j) = zn 0 rhs i }.

(** S = M' K^-1 M - N where the columns of M are those stored in w *)
Record repr (dim : Z) (K : Z -> Z -> R) (M Nm : Z -> Z -> R) (w : schur) : Prop := {
  r_col : forall j x, (0 <= j < sc_n w)%Z -> colsum w j x = rsum 0 dim (fun p => M p j * x p);
  r_N : forall i j, (0 <= i < sc_n w)%Z -> (0 <= j < sc_n w)%Z -> Nm i j = Nm j i;
  r_S : exists X, (forall p j, (0 <= p < dim)%Z -> (0 <= j < sc_n w)%Z -> rsum 0 dim (fun q => K p q * X q j) = M p j) /\
     forall i j, (0 <= i < sc_n w)%Z -> (0 <= j < sc_n w)%Z -> Sf w i j = rsum 0 dim (fun p => M p i * X p j) - Nm i j }.

Record factored (w : schur) : Prop := {
  f_sizes : sizes w; f_mcols : mcols w;
  f_qrs : qrs (sc_n w) (sc_n w) 1 (Sf w) (Qf w) (Rf w);
  f_upper : upper (sc_n w) (Rf w);
  f_sign : sign_of (sc_det w) (det (nat_n (sc_n w)) (Sf w)) }.

Lemma dual dim K (x y a b : Z -> R) : (forall i j, (0 <= i < dim)%Z -> (0 <= j < dim)%Z -> K i j = K j i) ->
  (forall p, (0 <= p < dim)%Z -> rsum 0 dim (fun q => K p q * x q) = a p) -> (forall p, (0 <= p < dim)%Z -> rsum 0 dim (fun q => K p q * y q) = b p) ->
  rsum 0 dim (fun p => a p * y p) = rsum 0 dim (fun p => b p * x p).
Proof.
  intros SK A B. rewrite (rsum_ext 0 dim _ (fun p => rsum 0 dim (fun q => K p q * x q * y p))) by (intros p Hp; rewrite <- A by exact Hp; rewrite <- rsum_scal_r; reflexivity).
  rewrite rsum_swap. apply rsum_ext. intros q Hq. rewrite <- B by exact Hq. rewrite <- rsum_scal_r. apply rsum_ext. intros p Hp. rewrite (SK p q) by assumption. ring.
Qed.
Lemma repr_sym dim K M Nm w : (forall i j, (0 <= i < dim)%Z -> (0 <= j < dim)%Z -> K i j = K j i) -> repr dim K M Nm w ->
  forall i j, (0 <= i < sc_n w)%Z -> (0 <= j < sc_n w)%Z -> Sf w i j = Sf w j i.
Proof.
  intros SK [_ RN (X & HX & HS)] i j Hi Hj. rewrite !HS by assumption. rewrite (RN i j) by assumption. f_equal.
  apply (dual dim K (fun p => X p i) (fun p => X p j) (fun p => M p i) (fun p => M p j)); [exact SK| |]; intros p Hp; apply HX; assumption.
Qed.

Lemma spv_sum dim Mpos (Mvals : arr) x : (forall t, (0 <= t < zlen Mpos)%Z -> (0 <= zn 0%Z Mpos t < dim)%Z) ->
  rsum 0 (zlen Mpos) (fun t => zn 0 Mvals t * x (zn 0%Z Mpos t)) = rsum 0 dim (fun p => spv Mpos Mvals p * x p).
Proof.
  intros Hr. unfold spv. rewrite (rsum_ext 0 dim _ (fun p => rsum 0 (zlen Mpos) (fun t => kd (zn 0%Z Mpos t) p * zn 0 Mvals t * x p))) by (intros p Hp; rewrite <- rsum_scal_r; reflexivity).
  rewrite rsum_swap. apply rsum_ext. intros t Ht. rewrite (rsum_delta 0 dim (zn 0%Z Mpos t)).
  - rewrite kd_same. ring.
  - apply Hr; exact Ht.
  - intros p Hp Np. rewrite kd_ne by congruence. ring.
Qed.

(** *** bordering *)
Definition addcol (n : Z) (c : Z -> R) (M : Z -> Z -> R) (p j : Z) : R := if (j =? n)%Z then c p else M p j.
Definition border (n : Z) (c : Z -> R) (d : R) (A : Z -> Z -> R) (i j : Z) : R :=
  if (i =? n)%Z then (if (j =? n)%Z then d else c j) else if (j =? n)%Z then c i else A i j.
Lemma append_repr K f number update Mpos (Mvals : arr) Npos (Nvals : arr) (Nd : R) M Nm (w w' : schur) : kkt K f -> sizes w -> upd_data (f_dim f) (sc_n w) Mpos Mvals Npos Nvals ->
  repr (f_dim f) K M Nm w -> appended eps zero infty (f_dim f) (f_solve f) number update Mpos Mvals Npos Nvals Nd w w' ->
  repr (f_dim f) K (addcol (sc_n w) (spv Mpos Mvals) M) (border (sc_n w) (spv Npos Nvals) Nd Nm) w'.
Proof.
  intros KK HZ U RR A. pose proof (z_n w HZ) as Hn. destruct KK as [KD KS KI KSol]. destruct RR as [RC RN (X & HX & HS)].
  destruct (a_new _ _ _ _ _ _ _ _ _ _ _ _ _ _ A) as (rhs & sol & Lr & Vr & Es & B1 & B2). destruct (KSol rhs sol Lr Es) as (Ls & Vs).
  pose proof (a_n _ _ _ _ _ _ _ _ _ _ _ _ _ _ A) as En. set (dim := f_dim f) in *. set (n := sc_n w) in *.
  constructor; rewrite ?En.
  - intros j x Hj. unfold addcol. destruct (Z.eqb_spec j n) as [->|Nj].
    + rewrite (a_coln _ _ _ _ _ _ _ _ _ _ _ _ _ _ A). apply spv_sum. apply (u_Mr _ _ _ _ _ _ U).
    + rewrite (a_col _ _ _ _ _ _ _ _ _ _ _ _ _ _ A) by (fold n; lia). apply RC. lia.
  - intros i j Hi Hj. unfold border. destruct (Z.eqb_spec i n), (Z.eqb_spec j n); try reflexivity. apply RN; lia.
  - exists (addcol n (zn 0 sol) X). split.
    + intros p j Hp Hj. unfold addcol. destruct (Z.eqb_spec j n) as [->|Nj].
      * rewrite Vs by exact Hp. apply Vr, Hp.
      * apply HX; lia.
    + assert (B3 : forall i, (0 <= i < n)%Z -> Sf w' i n = rsum 0 dim (fun p => M p i * zn 0 sol p) - spv Npos Nvals i).
      { intros i Hi. rewrite B1 by exact Hi. rewrite RC by exact Hi. reflexivity. }
      intros i j Hi Hj. unfold addcol, border. destruct (Z.eqb_spec i n) as [->|Ni], (Z.eqb_spec j n) as [->|Nj].
      * rewrite B2. rewrite (spv_sum dim) by apply (u_Mr _ _ _ _ _ _ U). reflexivity.
      * rewrite (a_sym _ _ _ _ _ _ _ _ _ _ _ _ _ _ A) by (fold n; lia). rewrite B3 by lia. f_equal.
        apply (dual dim K (fun p => X p j) (zn 0 sol) (fun p => M p j) (spv Mpos Mvals)); [exact KS| |].
        -- intros p Hp. apply HX; lia.
        -- intros p Hp. rewrite Vs by exact Hp. apply Vr, Hp.
      * apply B3. lia.
      * rewrite (a_S _ _ _ _ _ _ _ _ _ _ _ _ _ _ A) by (fold n; lia). apply HS; lia.
Qed.

(** *** deletion *)
Lemma deleted_ok undo idx (w w' : schur) : sizes w -> mcols w -> (0 <= idx < sc_n w)%Z -> deleted undo idx w w' ->
  sizes w' /\ mcols w' /\ (forall dim, ir_in dim w -> ir_in dim w') /\ (forall i j, (0 <= i < sc_n w')%Z -> (0 <= j < sc_n w')%Z -> Sf w' i j = Sf w (skip idx i) (skip idx j)) /\
  (forall j x, (0 <= j < sc_n w')%Z -> colsum w' j x = colsum w (skip idx j) x).
Proof.
  intros HZ C Hi D. pose proof (mono_le w C) as MM. pose proof (jc_range eps zero infty w HZ C) as JR. destruct HZ as [Zn ZS ZQ ZR Zjc Zidx Ztyp]. destruct C as [C0 C1 C2 C3].
  destruct D as [Dm Dn DQ DR Dd (L1 & L2 & L3 & L4 & L5 & L6) DS DSo Did Dido Djc DM DMo Du]. set (n := sc_n w) in *.
  set (ne := (zn 0 (sc_jc w) (idx + 1) - zn 0 (sc_jc w) idx)%Z) in *. pose proof (C1 idx Hi) as Hne.
  assert (DM' : forall k, (0 <= k < zn 0 (sc_jc w) n - ne)%Z -> let k' := (if (k <? zn 0 (sc_jc w) idx)%Z then k else (k + ne)%Z) in
     zn 0%Z (sc_ir w') k = zn 0%Z (sc_ir w) k' /\ zn (0 : R) (sc_mv w' : arr) k = zn (0 : R) (sc_mv w : arr) k') by exact DM.
  assert (E : zn 0%Z (sc_jc w') (n - 1) = (zn 0%Z (sc_jc w) n - ne)%Z).
  { rewrite Djc by lia. destruct (Z.leb_spec idx (n - 1)), (Z.ltb_spec (n - 1) n); try lia. cbn [andb]. now replace (n - 1 + 1)%Z with n by lia. }
  assert (HZ' : sizes w') by (constructor; rewrite ?Dm, ?Dn, ?DQ, ?DR, ?L1, ?L2, ?L5, ?L6; try assumption; lia).
  assert (C' : mcols w').
  { constructor.
    - rewrite Djc by lia. destruct (Z.leb_spec idx 0), (Z.ltb_spec 0 n); cbn [andb]; try lia. assert (E0 : idx = 0%Z) by lia. unfold ne. rewrite E0. change (0 + 1)%Z with 1%Z. lia.
    - intros i Hi'. rewrite Dn in Hi'. rewrite !Djc by lia. destruct (Z.leb_spec idx i), (Z.ltb_spec i n), (Z.leb_spec idx (i + 1)), (Z.ltb_spec (i + 1) n); cbn [andb]; try lia.
      + pose proof (C1 (i + 1)%Z ltac:(lia)). lia.
      + replace (i + 1)%Z with idx by lia. pose proof (C1 i ltac:(lia)). replace (i + 1)%Z with idx in H3 by lia. unfold ne. lia.
      + apply C1; lia.
    - rewrite Dn, E. lia.
    - rcar. lia. }
  split; [exact HZ'|]. split; [exact C'|]. split; [|split].
  - intros dim IR k Hk. rewrite Dn, E in Hk. destruct (DM k ltac:(lia)) as (E1 & _). rewrite E1. apply IR. fold n. pose proof (MM (idx + 1)%Z n ltac:(lia) ltac:(lia)). destruct (Z.ltb_spec k (zn 0%Z (sc_jc w) idx)); lia.
  - intros i j Hi' Hj. rewrite Dn in Hi', Hj. unfold SchurD.Sf. rewrite Dm. apply DS; lia.
  - intros j x Hj. rewrite Dn in Hj. unfold SchurE.colsum, skip. rewrite !Djc by lia. pose proof (JR j ltac:(lia)) as (J1 & J2 & J3 & J4). fold n in J3.
    assert (JI : (0 <= zn 0%Z (sc_jc w) idx)%Z) by apply (JR idx Hi). pose proof (MM (idx + 1)%Z n ltac:(lia) ltac:(fold n; lia)) as JN.
    destruct (Z.ltb_spec j idx) as [Lj|Gj].
    + destruct (Z.leb_spec idx j); [lia|]. cbn [andb].
      replace (if ((idx <=? j + 1) && (j + 1 <? n))%Z then (zn 0%Z (sc_jc w) (j + 1 + 1) - ne)%Z else zn 0%Z (sc_jc w) (j + 1)) with (zn 0%Z (sc_jc w) (j + 1)).
      2:{ destruct (Z.leb_spec idx (j + 1)), (Z.ltb_spec (j + 1) n); cbn [andb]; try reflexivity. replace (j + 1)%Z with idx by lia. unfold ne. lia. }
      apply rsum_ext. intros k Hk. pose proof (MM (j + 1)%Z idx ltac:(lia) ltac:(fold n; lia)). destruct (DM' k) as (E1 & E2); [lia|]. destruct (Z.ltb_spec k (zn 0%Z (sc_jc w) idx)); [|lia]. rcar. rewrite E1, E2. reflexivity.
    + destruct (Z.leb_spec idx j), (Z.ltb_spec j n), (Z.leb_spec idx (j + 1)), (Z.ltb_spec (j + 1) n); try lia. cbn [andb].
      replace (rsum (zn 0%Z (sc_jc w) (j + 1)) (zn 0%Z (sc_jc w) (j + 1 + 1))) with (rsum (zn 0%Z (sc_jc w) (j + 1) - ne + ne) (zn 0%Z (sc_jc w) (j + 1 + 1) - ne + ne)) by (f_equal; lia). rewrite <- rsum_shift.
      pose proof (MM (idx + 1)%Z (j + 1)%Z ltac:(lia) ltac:(fold n; lia)). pose proof (MM (j + 1 + 1)%Z n ltac:(lia) ltac:(fold n; lia)). pose proof (C1 (j + 1)%Z ltac:(lia)).
      apply rsum_ext. intros k Hk. destruct (DM' k) as (E1 & E2); [lia|]. destruct (Z.ltb_spec k (zn 0%Z (sc_jc w) idx)); [lia|]. rcar. rewrite E1, E2. reflexivity.
Qed.
Lemma skip_r idx n k : (0 <= idx <= n)%Z -> (0 <= k < n)%Z -> (0 <= skip idx k < n + 1)%Z.
Proof. intros. unfold skip. destruct (k <? idx)%Z; lia. Qed.
Lemma deleted_repr dim K M Nm undo idx (w w' : schur) : sizes w -> mcols w -> (0 <= idx < sc_n w)%Z -> deleted undo idx w w' -> repr dim K M Nm w ->
  repr dim K (fun p j => M p (skip idx j)) (fun i j => Nm (skip idx i) (skip idx j)) w'.
Proof.
  intros HZ C Hi D [RC RN (X & HX & HS)]. destruct (deleted_ok _ _ _ _ HZ C Hi D) as (_ & _ & _ & VS & VC). pose proof (d_n _ _ _ _ D) as En.
  assert (SK : forall k, (0 <= k < sc_n w')%Z -> (0 <= skip idx k < sc_n w)%Z) by (intros k Hk; pose proof (skip_r idx (sc_n w - 1) k); lia).
  constructor.
  - intros j x Hj. rewrite VC by exact Hj. apply RC, SK, Hj.
  - intros i j Hi' Hj. apply RN; apply SK; assumption.
  - exists (fun p j => X p (skip idx j)). split.
    + intros p j Hp Hj. apply (HX p (skip idx j)); [exact Hp|apply SK, Hj].
    + intros i j Hi' Hj. rewrite VS by assumption. apply HS; apply SK; assumption.
Qed.
End I.
