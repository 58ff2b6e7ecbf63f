(** The TQ factorisation and the projected Cholesky factor: invariants, and
    adding a constraint. *)
From Verif Require Import Base Types Num Options Indexlist IndexlistProofs Loops RSum LinSpec SafeLib SubjectTo SubjectToProofs SubjectToProofs2
  Flipper PropFlipper Matrices MatLib MatSafe PropDense CsLib PropSparse PropSparse2 LinAlg PropLinAlg QProblemB QPBSafe QPBX1 QPBX2 QPBX3 QProblem QPX1 QPX2 QPX3.
Local Open Scope R_scope.

Lemma rsum_list l f : rsum 0 (zlen l) (fun i => f (zn 0%Z l i)) = lsum l f.
Proof.
  induction l as [|a l IH]; [reflexivity|]. rewrite zlen_cons. pose proof (zlen_nonneg l). rewrite rsum_first by lia. cbn [lsum]. f_equal.
  rewrite <- IH. pose proof (rsum_shift 1 0 (zlen l) (fun i => f (zn 0%Z (a :: l) i))) as S. cbn beta in S.
  replace (1 + zlen l)%Z with (zlen l + 1)%Z by lia. change (0 + 1)%Z with 1%Z in *. rewrite <- S.
  apply rsum_ext. intros i Hi. f_equal. change (a :: l) with ([a] ++ l). rewrite zn_app2 by (change (zlen [a]) with 1%Z; lia). f_equal. change (zlen [a]) with 1%Z. lia.
Qed.

Lemma wp_acc (m off cnt : Z) body (g : Z -> Z -> R) (w0 : list R) (Q : list R -> Prop) : (0 <= cnt)%Z -> (0 <= m)%Z -> (0 <= off)%Z -> (off + m <= zlen w0)%Z ->
  (forall i w, (0 <= i < cnt)%Z -> zlen w = zlen w0 -> wp (body i w) (fun w' => zlen w' = zlen w0 /\
     (forall j, (0 <= j < m)%Z -> zn 0 w' (off + j)%Z = zn 0 w (off + j)%Z + g i j) /\
     (forall k, (0 <= k)%Z -> (k < off \/ off + m <= k)%Z -> zn 0 w' k = zn 0 w k))) ->
  (forall w', zlen w' = zlen w0 -> (forall j, (0 <= j < m)%Z -> zn 0 w' (off + j)%Z = zn 0 w0 (off + j)%Z + rsum 0 cnt (fun i => g i j)) ->
     (forall k, (0 <= k)%Z -> (k < off \/ off + m <= k)%Z -> zn 0 w' k = zn 0 w0 k) -> Q w') ->
  wp (for_up 0 cnt body w0) Q.
Proof.
  intros Hc Hm Ho Hl HB HQ.
  apply wp_for_up with (I := fun i w' => zlen w' = zlen w0 /\ (forall j, (0 <= j < m)%Z -> zn 0 w' (off + j)%Z = zn 0 w0 (off + j)%Z + rsum 0 i (fun i => g i j)) /\
     (forall k, (0 <= k)%Z -> (k < off \/ off + m <= k)%Z -> zn 0 w' k = zn 0 w0 k)); [lia| | |].
  - split; [reflexivity|]. split; [|reflexivity]. intros j Hj. rewrite rsum_empty by lia. ring.
  - intros i w Hi (L & V & U). eapply wp_mono; [apply HB; auto|]. intros w' (L' & V' & U'). split; [exact L'|]. split.
    + intros j Hj. rewrite V', V by lia. rewrite rsum_last by lia. ring.
    + intros k Hk Ho'. rewrite U', U by auto. reflexivity.
  - intros w' (L & V & U). apply HQ; auto.
Qed.

Section X4.
Variables eps zero infty : R.
Notation N := (RNumT eps zero infty).
Notation arr := (list R).

(** one pass w[off+j] += a * Q(ii,c0+j), j < m *)
Lemma acc_row (ad : Z -> Z) n m off ii c0 a (Q w : arr) : (forall j, ad j = off + j)%Z -> zlen Q = (n * n)%Z -> (0 <= ii < n)%Z -> (0 <= c0)%Z -> (c0 + m <= n)%Z -> (0 <= m)%Z -> (0 <= off)%Z -> (off + m <= zlen w)%Z ->
  wp (for_up 0 m (fun j w => v <- rd w (ad j) ;; q <- rd Q (ii + n * (c0 + j))%Z ;; wr w (ad j) (v + a * q)) w)
   (fun w' => zlen w' = zlen w /\ (forall j, (0 <= j < m)%Z -> zn 0 w' (off + j)%Z = zn 0 w (off + j)%Z + a * ce n Q ii (c0 + j)) /\
     (forall k, (0 <= k)%Z -> (k < off \/ off + m <= k)%Z -> zn 0 w' k = zn 0 w k)).
Proof.
  intros AD LQ Hii Hc0 Hc Hm Ho Hl.
  destruct (fill_loop 0 (fun j w => v <- rd w (ad j) ;; q <- rd Q (ii + n * (c0 + j))%Z ;; wr w (ad j) (v + a * q))
     (fun j v => v + a * ce n Q ii (c0 + j)) off 0 m w) as (w' & E & L & V); [lia|lia| |].
  - intros j s Hj Ls. rewrite !AD. rewrite (rd_ok 0) by lia. cbn [bind]. rewrite (rd_ok 0) by (apply (ce_in n Q n); lia). cbn [bind]. rewrite wr_ok by lia. reflexivity.
  - rewrite E. apply wp_ok. split; [exact L|]. split.
    + intros j Hj. rewrite V by lia. destruct (Z.leb_spec (off + 0) (off + j)), (Z.ltb_spec (off + j) (off + m)); try lia. cbn [andb]. now replace (off + j - off)%Z with j by lia.
    + intros k Hk Hk'. rewrite V by lia. destruct (Z.leb_spec (off + 0) k), (Z.ltb_spec k (off + m)); try lia; reflexivity.
Qed.

(** ** The constraint matrix *)
Record amat_ok (m n : Z) (M : amat N) (Am : Z -> Z -> R) : Prop := {
  am_row : forall r ic l (row : arr), il_rep ic l -> (forall v, In v l -> (0 <= v < n)%Z) -> (0 <= r < m)%Z -> (zlen l <= zlen row)%Z ->
    exists row', a_getRow (N := N) M r (Some ic) n1 row = Ok row' /\ zlen row' = zlen row /\
      forall p, (0 <= p < zlen l)%Z -> zn 0 row' p = Am r (zn 0%Z l p);
  am_col : forall c ir l (col : arr), il_rep ir l -> (forall v, In v l -> (0 <= v < m)%Z) -> (0 <= c < n)%Z -> (zlen l <= zlen col)%Z ->
    exists col', a_getCol (N := N) M c ir n1 col = Ok col' /\ zlen col' = zlen col /\
      forall p, (0 <= p < zlen l)%Z -> zn 0 col' p = Am (zn 0%Z l p) c
}.
Lemma dense_amat_ok m n A : 0 <= zero < 1 -> wf_dense A -> d_nr A = m -> d_nc A = n -> amat_ok m n (ADense (N := N) A) (dmat A).
Proof.
  intros Hz WF Hr Hc. assert (Hz' : 0 <= zero) by lra. constructor.
  - intros r ic l row Rp In0 Hr' L. cbn [a_getRow].
    destruct (C26_dense_getRow eps zero infty Hz' A r (Some ic) l 1 row WF) as (row' & E & L' & V); [lia|split; [exact Rp|apply idx_range; now rewrite Hc]|exact L|apply unit_regular; auto|].
    exists row'. split; [exact E|]. split; [exact L'|]. intros p Hp. rewrite V by lia. destruct (Z.ltb_spec p (zlen l)); [lra|lia].
  - intros c ir l col Rp In0 Hc' L. cbn [a_getCol].
    destruct (C26_dense_getCol eps zero infty Hz' A c ir l 1 col WF) as (col' & E & L' & V); [lia|exact Rp|apply idx_range; now rewrite Hr|exact L|apply unit_regular; auto|].
    exists col'. split; [exact E|]. split; [exact L'|]. intros p Hp; rewrite V by lia; destruct (Z.ltb_spec p (zlen l)); try lia; lra.
Qed.
Lemma sparse_amat_ok m n A : 0 <= zero < 1 -> wf_sparse A -> s_nr A = m -> s_nc A = n -> amat_ok m n (ASparse (N := N) A) (smat A).
Proof.
  intros Hz WF Hr Hc. assert (Hz' : 0 <= zero) by lra. constructor.
  - intros r ic l row Rp In0 Hr' L. cbn [a_getRow].
    destruct (C26_sparse_getRow eps zero infty Hz' A r (Some ic) l 1 row WF) as (row' & E & L' & V); [lia|split; [exact Rp|apply idx_range; now rewrite Hc]|discriminate|exact L|apply unit_regular; auto|].
    exists row'. split; [exact E|]. split; [exact L'|]. intros p Hp. rewrite V by lia. destruct (Z.ltb_spec p (zlen l)); [lra|lia].
  - intros c ir l col Rp In0 Hc' L. cbn [a_getCol].
    destruct (C26_sparse_getCol eps zero infty Hz' A c ir l 1 col WF) as (col' & E & L' & V); [lia|exact Rp|exact L|apply unit_regular; auto|].
    exists col'. split; [exact E|]. split; [exact L'|]. intros p Hp; rewrite V by lia; destruct (Z.ltb_spec p (zlen l)); try lia; lra.
Qed.
Lemma sprow_amat_ok m n A : 0 <= zero < 1 -> wf_sprow A -> r_nr A = m -> r_nc A = n -> amat_ok m n (ASprow (N := N) A) (rmat A).
Proof.
  intros Hz WF Hr Hc. assert (Hz' : 0 <= zero) by lra. constructor.
  - intros r ic l row Rp In0 Hr' L. cbn [a_getRow].
    destruct (C26_sprow_getRow eps zero infty Hz' A r (Some ic) l 1 row WF) as (row' & E & L' & V); [lia|split; [exact Rp|apply idx_range; now rewrite Hc]|exact L|apply unit_regular; auto|].
    exists row'. split; [exact E|]. split; [exact L'|]. intros p Hp. rewrite V by lia. destruct (Z.ltb_spec p (zlen l)); [lra|lia].
  - intros c ir l col Rp In0 Hc' L. cbn [a_getCol].
    destruct (C26_sprow_getCol eps zero infty Hz' A c ir l 1 col WF) as (col' & E & L' & V); [exact Rp|apply idx_range; now rewrite Hr|exact L|apply unit_regular; auto|].
    exists col'. split; [exact E|]. split; [exact L'|]. intros p Hp; rewrite V by lia; destruct (Z.ltb_spec p (zlen l)); try lia; lra.
Qed.

(** ** Invariants *)
(** entry (i,j) of T *)
Definition te (sT : Z) (T : arr) (i j : Z) : R := zn 0 T (i * sT + j).
Lemma te_upd sT (T : arr) i j i' j' v : (0 <= i)%Z -> (0 <= i')%Z -> (0 <= j < sT)%Z -> (0 <= j' < sT)%Z -> (i * sT + j < zlen T)%Z ->
  te sT (zupd T (i * sT + j) v) i' j' = if ((i' =? i) && (j' =? j))%Z then v else te sT T i' j'.
Proof.
  intros. unfold te. replace (i * sT + j)%Z with (j + sT * i)%Z in * by lia. replace (i' * sT + j')%Z with (j' + sT * i')%Z by lia.
  change (ce sT (zupd T (j + sT * i) v) j' i' = if ((i' =? i) && (j' =? j))%Z then v else ce sT T j' i'). rewrite ce_upd by lia. now rewrite andb_comm.
Qed.
Lemma te_in sT (T : arr) i j : zlen T = (sT * sT)%Z -> (0 <= i < sT)%Z -> (0 <= j < sT)%Z -> (0 <= i * sT + j < zlen T)%Z.
Proof. intros L Hi Hj. replace (i * sT + j)%Z with (j + sT * i)%Z by lia. apply (ce_in sT T sT); lia. Qed.

(** l are the free variables, k the active constraints, nfr and nac their
    numbers, nz = nfr - nac.  Column p of T within [0 T] is column sT-nfr+p of the
    array, and its first nonzero entry is in row nfr-1-p. *)
Definition tqf (n sT : Z) (l k : list Z) (Am : Z -> Z -> R) (Q T : arr) : Prop :=
  (zlen k <= zlen l)%Z /\ orth l (zlen l) (ce n Q) /\
  (forall i p, (0 <= i < zlen k)%Z -> (0 <= p < zlen l)%Z ->
     comb l (Am (zn 0%Z k i)) (ce n Q) p = if (zlen l - 1 <=? i + p)%Z then te sT T i (sT - zlen l + p) else 0) /\
  (forall i, (0 <= i < zlen k)%Z -> te sT T i (sT - 1 - i) <> 0).

Definition subz (n : Z) (Ra : arr) : Prop := forall p, (0 <= p)%Z -> (p + 1 < n)%Z -> ce n Ra (p + 1) p = 0.
Definition rinv (n nz : Z) (l : list Z) (Hm : Z -> Z -> R) (Q Ra : arr) : Prop :=
  factor n nz Ra (zhz l Hm (ce n Q)) /\ subz n Ra.

(** what the updates of R themselves need: a nonsingular triangle *)
Definition rreg (n nz : Z) (Ra : arr) : Prop := (forall i, (0 <= i < nz)%Z -> ce n Ra i i <> 0) /\ subz n Ra.

(** memory *)
Record pwf (n m : Z) (Am : Z -> Z -> R) (s : qp N) (l0 l1 k0 k1 : list Z) : Prop := {
  pw_n : pV s = n;
  pw_m : pC s = m;
  pw_b : st_wf (p_bounds s) l0 l1;
  pw_c : st_wf (p_cons s) k0 k1;
  pw_Q : zlen (p_Q s) = (n * n)%Z;
  pw_R : zlen (q_R (p_b s)) = (n * n)%Z;
  pw_sT : p_sizeT s = Z.min n m;
  pw_T : zlen (p_T s) = (p_sizeT s * p_sizeT s)%Z;
  pw_A : exists M, p_A s = Some M /\ amat_ok m n M Am
}.

Lemma range_b (b : subjectTo) l0 l1 : st_wf b l0 l1 -> (forall v, In v l0 -> (0 <= v < st_n b)%Z) /\ (forall v, In v l1 -> (0 <= v < st_n b)%Z).
Proof. intros W. split; intros v Hv; [now apply (wf_in0 _ _ _ W)|now apply (wf_in1 _ _ _ W)]. Qed.
Lemma len_b (b : subjectTo) l0 l1 : st_wf b l0 l1 -> (zlen l0 <= st_n b)%Z /\ (zlen l1 <= st_n b)%Z.
Proof.
  intros W. split; rewrite <- ?(rep_len _ _ (wf_ina _ _ _ W)), <- ?(rep_len _ _ (wf_act _ _ _ W)).
  - rewrite <- (wf_pina _ _ _ W). apply (rep_phys _ _ (wf_ina _ _ _ W)).
  - rewrite <- (wf_pact _ _ _ W). apply (rep_phys _ _ (wf_act _ _ _ W)).
Qed.
End X4.
