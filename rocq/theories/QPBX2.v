(** The Hessian of a QProblemB object as a matrix, and what the matrix
    operations used by the solver compute (exact arithmetic). *)
From Verif Require Import Base Types Num Options Indexlist IndexlistProofs Loops RSum LinSpec SafeLib SubjectTo SubjectToProofs SubjectToProofs2
  Flipper PropFlipper Matrices MatLib MatSafe PropDense CsLib PropSparse PropSparse2 LinAlg PropLinAlg QProblemB QPBSafe QPBX1.
Local Open Scope R_scope.

Section X2.
Variables eps zero infty : R.
Notation N := (RNumT eps zero infty).
Notation arr := (list R).

(** M represents the n x n matrix Hm *)
Record mat_ok (n : Z) (M : symmat N) (Hm : Z -> Z -> R) : Prop := {
  mo_diag : forall i, (0 <= i < n)%Z -> m_diag (N := N) M i = Ok (Hm i i);
  mo_row : forall r ic l (row : arr), il_rep ic l -> (forall v, In v l -> (0 <= v < n)%Z) -> (0 <= r < n)%Z -> (zlen l <= zlen row)%Z ->
    exists row', m_getRow (N := N) M r (Some ic) n1 row = Ok row' /\ zlen row' = zlen row /\
      forall p, (0 <= p < zlen l)%Z -> zn 0 row' p = Hm r (zn 0%Z l p);
  mo_col : forall c ir l (col : arr), il_rep ir l -> (forall v, In v l -> (0 <= v < n)%Z) -> (0 <= c < n)%Z -> (zlen l <= zlen col)%Z ->
    exists col', m_getCol (N := N) M c ir n1 col = Ok col' /\ zlen col' = zlen col /\
      (forall p, (0 <= p < zlen l)%Z -> zn 0 col' p = Hm (zn 0%Z l p) c) /\ (forall p, (zlen l <= p)%Z -> zn 0 col' p = zn 0 col p);
  mo_times : forall a b (x y : arr), (a = n1 \/ a = nm1 (N := N)) -> (b = n0 \/ b = n1 (N := N)) -> zlen x = n -> zlen y = n ->
    exists y', m_times (N := N) M 1 a x n b y n = Ok y' /\ zlen y' = zlen y /\
      forall i, (0 <= i < n)%Z -> zn 0 y' i = b * zn 0 y i + a * matvec n Hm (zn 0 x) i;
  mo_idxb : forall ir lr ic lc a b (x y : arr) lx ly, il_rep ir lr -> (forall v, In v lr -> (0 <= v < n)%Z) -> il_rep ic lc -> (forall v, In v lc -> (0 <= v < n)%Z) ->
    (a = n1 \/ a = nm1 (N := N)) -> (b = n0 \/ b = n1 (N := N)) -> (zlen lc <= zlen x)%Z -> (zlen lr <= zlen y)%Z -> (0 <= lx)%Z -> (0 <= ly)%Z ->
    exists y', m_times_idx (N := N) M ir ic 1 a x lx b y ly = Ok y' /\ zlen y' = zlen y /\
      (forall p, (0 <= p < zlen lr)%Z -> zn 0 y' p = b * zn 0 y p + a * rsum 0 (zlen lc) (fun q => Hm (zn 0%Z lr p) (zn 0%Z lc q) * zn 0 x q)) /\
      (forall p, (zlen lr <= p)%Z -> zn 0 y' p = zn 0 y p)
}.
Lemma mo_idx n M Hm : mat_ok n M Hm -> forall ir lr ic lc a (x y : arr) lx ly, il_rep ir lr -> (forall v, In v lr -> (0 <= v < n)%Z) -> il_rep ic lc -> (forall v, In v lc -> (0 <= v < n)%Z) ->
    (a = n1 \/ a = nm1 (N := N)) -> (zlen lc <= zlen x)%Z -> (zlen lr <= zlen y)%Z -> (0 <= lx)%Z -> (0 <= ly)%Z ->
    exists y', m_times_idx (N := N) M ir ic 1 a x lx n1 y ly = Ok y' /\ zlen y' = zlen y /\
      (forall p, (0 <= p < zlen lr)%Z -> zn 0 y' p = zn 0 y p + a * rsum 0 (zlen lc) (fun q => Hm (zn 0%Z lr p) (zn 0%Z lc q) * zn 0 x q)) /\
      (forall p, (zlen lr <= p)%Z -> zn 0 y' p = zn 0 y p).
Proof.
  intros K ir lr ic lc a x y lx ly R1 I1 R2 I2 Ha L1 L2 L3 L4. destruct (mo_idxb n M Hm K ir lr ic lc a n1 x y lx ly R1 I1 R2 I2 Ha ltac:(auto) L1 L2 L3 L4) as (y' & E & L & V & U).
  exists y'. split; [exact E|]. split; [exact L|]. split; [|exact U]. intros p Hp. rewrite V by lia. rnum. now rewrite Rmult_1_l.
Qed.

Lemma unit_regular (c : R) : 0 <= zero < 1 -> c = 0 \/ c = 1 \/ c = -1 -> regular zero c.
Proof.
  intros Hz Hc d Hd L. unfold Rabs in L. destruct (Rcase_abs (c - d)); destruct Hc as [-> | [-> | ->]], Hd as [-> | [-> | ->]]; lra.
Qed.
Lemma idx_range l n : (forall v, In v l -> (0 <= v < n)%Z) -> idx_in l n.
Proof. intros H k Hk. apply H, zn_In, Hk. Qed.
Lemma fits1 n ld L : (0 <= ld)%Z -> (n <= L)%Z -> fits 1 n ld L.
Proof. intros H1 H2. split; [exact H1|]. intros _ _. lia. Qed.
Lemma strided1 n ld : strided 1 n ld.
Proof. left. lia. Qed.
Lemma updated1 n ld (y y' : arr) b S : updated 1 n (addr ld) y y' b S ->
  zlen y' = zlen y /\ (forall j, (0 <= j < n)%Z -> zn 0 y' j = b * zn 0 y j + S 0%Z j) /\ (forall p, (0 <= p)%Z -> (n <= p)%Z -> zn 0 y' p = zn 0 y p).
Proof.
  intros (L & V & U). split; [exact L|]. split.
  - intros j Hj. specialize (V 0%Z j ltac:(lia) Hj). unfold addr in V. now rewrite Z.mul_0_l, Z.add_0_r in V.
  - intros p H0 Hp. apply U; [exact H0|]. intros k j Hk Hj E. unfold addr in E. assert (k = 0)%Z by lia. subst k. lia.
Qed.
Lemma nm1_R : nm1 (N := N) = -1.
Proof. rnum. change (Rlit 1 0) with 1. lra. Qed.

(** a dense matrix with the leading dimension init() uses *)
Lemma dense_mat_ok n A : 0 <= zero < 1 -> (0 <= n)%Z -> wf_dense A -> d_nr A = n -> d_nc A = n -> d_ld A = n -> mat_ok n (SDense (N := N) A) (dmat A).
Proof.
  intros Hz Hn0 WF Hr Hc Hl. assert (Hz' : 0 <= zero) by lra. constructor.
  - intros i Hi. cbn [m_diag]. apply C26_dense_diag; auto; lia.
  - intros r ic l row Rp In0 Hr' L. cbn [m_getRow].
    destruct (C26_dense_getRow eps zero infty Hz' A r (Some ic) l 1 row WF) as (row' & E & L' & V); [lia|split; [exact Rp|apply idx_range; now rewrite Hc]|exact L|apply unit_regular; auto|].
    exists row'. split; [exact E|]. split; [exact L'|]. intros p Hp. rewrite V by lia. destruct (Z.ltb_spec p (zlen l)); [lra|lia].
  - intros c ir l col Rp In0 Hc' L. cbn [m_getCol].
    destruct (C26_dense_getCol eps zero infty Hz' A c ir l 1 col WF) as (col' & E & L' & V); [lia|exact Rp|apply idx_range; now rewrite Hr|exact L|apply unit_regular; auto|].
    exists col'. split; [exact E|]. split; [exact L'|]. pose proof (zlen_nonneg l). split; intros p Hp; rewrite V by lia; destruct (Z.ltb_spec p (zlen l)); try lia; [lra|reflexivity].
  - intros a b x y Ha Hb Lx Ly. cbn [m_times]. rewrite nm1_R in Ha.
    destruct (C18_times eps zero infty Hz' A 1 a x n b y n WF) as (y' & E & U); try lia.
    1,2: apply unit_regular; auto; destruct Ha, Hb; auto.
    1,3: apply fits1; rewrite ?Hr, ?Hc; lia.
    1,2: apply strided1.
    exists y'. split; [exact E|]. apply updated1 in U as (L & V & _). split; [exact L|]. intros i Hi. rewrite V by lia. f_equal. f_equal.
    unfold mv, matvec. rewrite Hc. apply rsum_ext. intros j Hj. unfold vec. now rewrite Z.mul_0_l, Z.add_0_r.
  - intros ir lr ic lc a b x y lx ly Rr Ir Rc Ic Ha Hb Lx Ly Hlx Hly. cbn [m_times_idx]. rewrite nm1_R in Ha.
    destruct (C19_times_compressed eps zero infty Hz' A ir lr (Some ic) lc 1 a x lx b y ly WF Rr) as (y' & E & U); try lia.
    1: apply idx_range; now rewrite Hr.
    1: split; [exact Rc|apply idx_range; now rewrite Hc].
    1,2: apply unit_regular; auto; destruct Ha, Hb; auto.
    1,2: now apply fits1.
    1: apply strided1.
    exists y'. split; [exact E|]. apply updated1 in U as (L & V & U). split; [exact L|]. pose proof (zlen_nonneg lr). split; [|intros p Hp; apply U; lia].
    intros p Hp. rewrite V by lia. f_equal. f_equal. unfold mv. apply rsum_ext. intros j Hj. unfold vec. now rewrite Z.mul_0_l, Z.add_0_r.
Qed.

(** A sparse matrix with diagonal information.  Products over index lists skip
    entries of x of magnitude at most ZERO, so this needs ZERO = 0: rounding ZERO
    down to zero is part of the idealisation. *)
Lemma sparse_mat_ok n A jd : zero = 0 -> (0 <= n)%Z -> wf_sparse A -> s_nr A = n -> s_nc A = n -> s_jd A = Some jd -> diag_info n (s_jc A) (s_ir A) jd ->
  mat_ok n (SSparse (N := N) A) (smat A).
Proof.
  intros Hz0 Hn0 WF Hr Hc Hj DI. assert (Hz : 0 <= zero < 1) by lra. assert (Hz' : 0 <= zero) by lra. constructor.
  - intros i Hi. cbn [m_diag]. apply (C26_sparse_diag _ _ _ A jd); auto; rewrite Hc; auto.
  - intros r ic l row Rp In0 Hr' L. cbn [m_getRow].
    destruct (C26_sparse_getRow eps zero infty Hz' A r (Some ic) l 1 row WF) as (row' & E & L' & V); [lia|split; [exact Rp|apply idx_range; now rewrite Hc]|discriminate|exact L|apply unit_regular; auto|].
    exists row'. split; [exact E|]. split; [exact L'|]. intros p Hp. rewrite V by lia. destruct (Z.ltb_spec p (zlen l)); [lra|lia].
  - intros c ir l col Rp In0 Hc' L. cbn [m_getCol].
    destruct (C26_sparse_getCol eps zero infty Hz' A c ir l 1 col WF) as (col' & E & L' & V); [lia|exact Rp|exact L|apply unit_regular; auto|].
    exists col'. split; [exact E|]. split; [exact L'|]. pose proof (zlen_nonneg l). split; intros p Hp; rewrite V by lia; destruct (Z.ltb_spec p (zlen l)); try lia; [lra|reflexivity].
  - intros a b x y Ha Hb Lx Ly. cbn [m_times]. rewrite nm1_R in Ha.
    destruct (C22_sparse_times eps zero infty Hz' A WF 1%Z a x n b y n) as (y' & E & U); try lia.
    1,2: apply unit_regular; auto; destruct Ha, Hb; auto.
    1,2: apply fits1; rewrite ?Hr, ?Hc; lia.
    1: apply strided1.
    exists y'. split; [exact E|]. apply updated1 in U as (L & V & _). split; [exact L|]. intros i Hi. rewrite V by lia. f_equal. f_equal.
    unfold mv, matvec. rewrite Hc. apply rsum_ext. intros j Hj'. unfold vec. now rewrite Z.mul_0_l, Z.add_0_r.
  - intros ir lr ic lc a b x y lx ly Rr Ir Rc Ic Ha Hb Lx Ly Hlx Hly. cbn [m_times_idx]. rewrite nm1_R in Ha.
    destruct (C22_sparse_times_idx eps zero infty Hz' A ir lr (Some ic) lc 1 a x lx b y ly true WF Rr) as (y' & E & U); try lia; try discriminate; auto.
    1: apply idx_range; now rewrite Hr.
    1: split; [exact Rc|apply idx_range; now rewrite Hc].
    1,2: apply unit_regular; auto; destruct Ha, Hb; auto.
    1: { intros k i Hk Hi B. rewrite Hz0 in B. destruct (Req_dec (vec x lx k i) 0) as [|NZ]; auto. apply Rabs_pos_lt in NZ. lra. }
    1,2: now apply fits1.
    1: apply strided1.
    exists y'. split; [exact E|]. apply updated1 in U as (L & V & U). split; [exact L|]. pose proof (zlen_nonneg lr). split; [|intros p Hp; apply U; lia].
    intros p Hp. rewrite V by lia. f_equal. f_equal. unfold mv. apply rsum_ext. intros j Hj'. unfold vec. now rewrite Z.mul_0_l, Z.add_0_r.
Qed.

(** ** The Hessian the solver works with *)
Definition delta (i j : Z) : R := if (i =? j)%Z then 1 else 0.
(** Hm is the Hessian of s: with HST_ZERO only the regularisation (if in use), with HST_IDENTITY the identity, otherwise the matrix H *)
Definition hess (n : Z) (s : qpb N) (Hm : Z -> Z -> R) : Prop :=
  match q_htype s with
  | HST_ZERO => forall i j, Hm i j = if usingReg s then q_regVal s * delta i j else 0
  | HST_IDENTITY => forall i j, Hm i j = delta i j
  | _ => exists M, q_H s = Some M /\ mat_ok n M Hm
  end.
Lemma hess_plain n s Hm : hess n s Hm -> plainH s = true -> exists M, q_H s = Some M /\ q_theH s = Ok M /\ mat_ok n M Hm.
Proof.
  unfold hess, plainH, q_theH, is_hst. intros H P. destruct (q_htype s); try discriminate; destruct H as (M & -> & K); exists M; auto.
Qed.
End X2.
