(** C55, C65, C66: SQProblemSchur's Schur complement over the reals. *)
From Verif Require Import Base Types Num RSum LinSpec LinAlg PropLinAlg QPX7 Schur SchurM Det SchurF SchurA SchurB SchurS SchurU SchurC SchurD SchurE SchurI.
Local Open Scope R_scope.

Section P.
Variables eps zero infty : R.
Hypothesis zero_0 : zero = 0.
Notation N := (RNumT eps zero infty).
Notation arr := (list R).
Notation schur := (Schur.schur N).
Notation Sf := (Sf eps zero infty). Notation Qf := (Qf eps zero infty). Notation Rf := (Rf eps zero infty).
Notation colsum := (colsum eps zero infty). Notation ir_in := (ir_in eps zero infty).
Notation kkt := (kkt eps zero infty). Notation repr := (repr eps zero infty). Notation factored := (factored eps zero infty).

(** what a caller has to respect *)
Definition valid (op : sop N) (s : factor N * schur) : Prop :=
  match op with
  | SAdd _ _ _ Mp Mv Np Nv _ => (sc_n (snd s) < sc_max (snd s))%Z /\ upd_data (f_dim (fst s)) (sc_n (snd s)) Mp Mv Np Nv
  | SDel _ idx => (0 <= idx < sc_n (snd s))%Z
  | SReset f => exists K, kkt K f
  end.

(** histories: the object, the factorised matrix K and the blocks M, N of the
    matrix (K M; M' N) that the updates so far stand for *)
Inductive history : factor N -> schur -> (Z -> Z -> R) -> (Z -> Z -> R) -> (Z -> Z -> R) -> Prop :=
| h_new f K M Nm m phys : kkt K f -> (0 < m)%Z -> (0 <= phys)%Z -> history f (schur_new (N := N) m phys) K M Nm
| h_reset f w K M Nm f' K' w' : history f w K M Nm -> kkt K' f' -> run_sop (N := N) (SReset (N := N) f') (f, w) = Ok (f', w') -> history f' w' K' M Nm
| h_add f w K M Nm probe number update Mp (Mv : arr) Np (Nv : arr) (Nd : R) w' : history f w K M Nm ->
    valid (SAdd (N := N) probe number update Mp Mv Np Nv Nd) (f, w) -> run_sop (N := N) (SAdd (N := N) probe number update Mp Mv Np Nv Nd) (f, w) = Ok (f, w') -> sc_n w' = (sc_n w + 1)%Z ->
    history f w' K (fun p j => if (j =? sc_n w)%Z then spv Mp Mv p else M p j)
      (fun i j => if (i =? sc_n w)%Z then (if (j =? sc_n w)%Z then Nd else spv Np Nv j) else if (j =? sc_n w)%Z then spv Np Nv i else Nm i j)
| h_del f w K M Nm probe idx w' : history f w K M Nm -> valid (SDel (N := N) probe idx) (f, w) -> run_sop (N := N) (SDel (N := N) probe idx) (f, w) = Ok (f, w') -> sc_n w' = (sc_n w - 1)%Z ->
    history f w' K (fun p j => M p (skip idx j)) (fun i j => Nm (skip idx i) (skip idx j))
| h_none f w K M Nm op w' : history f w K M Nm -> valid op (f, w) -> run_sop (N := N) op (f, w) = Ok (f, w') -> (match op with SReset _ => False | _ => True end) -> sc_n w' = sc_n w ->
    history f w' K M Nm.

Record tracks (f : factor N) (w : schur) (K M Nm : Z -> Z -> R) : Prop := {
  t_kkt : kkt K f; t_fact : factored w; t_max : (0 < sc_max w)%Z; t_ir : ir_in (f_dim f) w; t_repr : repr (f_dim f) K M Nm w }.

Lemma empty_fact (w : schur) : sizes w -> sc_n w = 0%Z -> (0 <= zn 0 (sc_jc w) 0 <= zlen (sc_ir w))%Z -> zlen (sc_ir w) = zlen (sc_mv w) -> sc_det w = 1 -> factored w.
Proof.
  intros HZ En J L Ed. constructor.
  - exact HZ.
  - constructor; rewrite ?En; lia.
  - rewrite En. constructor; try (intros; lia). intros Mx. change (1 = 1 * 1). ring.
  - rewrite En. intros i j; intros; lia.
  - rewrite En, Ed. change (sign_of 1 1). split; [now left|]. rewrite Rabs_R1. ring.
Qed.
Lemma empty_repr dim K M Nm (w : schur) : sc_n w = 0%Z -> repr dim K M Nm w.
Proof. intros E. constructor; rewrite ?E; try (intros; lia). exists (fun _ _ => 0). split; intros; lia. Qed.
Lemma new_tracks f K M Nm m phys : kkt K f -> (0 < m)%Z -> (0 <= phys)%Z -> tracks f (schur_new (N := N) m phys) K M Nm.
Proof.
  intros KK Hm Hp. assert (J : zn 0%Z (repeat 0%Z (nat_n (m + 1))) 0 = 0%Z) by (replace (nat_n (m + 1)) with (S (nat_n m)) by lia; reflexivity). constructor.
  - exact KK.
  - apply empty_fact; unfold schur_new; cbn [sc_max sc_n sc_S sc_Q sc_R sc_det sc_jc sc_ir sc_mv sc_idx sc_typ]; rewrite ?J, ?zlen_rep by lia; try lia; try reflexivity.
    constructor; cbn [sc_max sc_n sc_S sc_Q sc_R sc_det sc_jc sc_ir sc_mv sc_idx sc_typ]; rewrite ?zlen_rep by nia; try lia; try reflexivity.
  - exact Hm.
  - intros k. unfold schur_new; cbn [sc_jc sc_n]. rewrite J. lia.
  - now apply empty_repr.
Qed.
Lemma reset_tracks f w K M Nm f' K' M' N' : tracks f w K M Nm -> kkt K' f' -> wp (run_sop (N := N) (SReset (N := N) f') (f, w)) (fun s => fst s = f' /\ sc_n (snd s) = 0%Z /\ tracks f' (snd s) K' M' N').
Proof.
  intros T KK. destruct T as [_ [HZ C _ _ _] Tm _ _]. pose proof HZ as Z'. destruct Z' as [Zn ZS ZQ ZR Zjc Zidx Ztyp]. destruct C as [C0 C1 C2 C3].
  unfold run_sop, schur_reset. pose proof (zlen_nonneg (sc_ir w)) as LI. destruct (Z.ltb_spec 0 (sc_max w)); [|lia]. rewrite wr_ok by lia. cbn [bind]. apply wp_ok. cbn [fst snd]. split; [reflexivity|]. split; [reflexivity|].
  assert (J : zn 0%Z (zupd (sc_jc w) 0 0%Z) 0 = 0%Z) by (rewrite zn_zupd by lia; reflexivity). constructor.
  - exact KK.
  - apply empty_fact; cbn [sc_max sc_n sc_S sc_Q sc_R sc_det sc_jc sc_ir sc_mv sc_idx sc_typ]; rewrite ?J; try assumption; try reflexivity; [|lia].
    constructor; cbn [sc_max sc_n sc_S sc_Q sc_R sc_det sc_jc sc_ir sc_mv sc_idx sc_typ]; rewrite ?zlen_zupd; try assumption; lia.
  - exact Tm.
  - intros k Hk. cbn [sc_jc sc_n sc_ir] in *. rewrite J in Hk. lia.
  - now apply empty_repr.
Qed.
Lemma qrs_block n (S S' Q R : Z -> Z -> R) : qrs n n 1 S Q R -> (forall i j, (0 <= i < n)%Z -> (0 <= j < n)%Z -> S' i j = S i j) -> qrs n n 1 S' Q R.
Proof. intros [P A B D] E. constructor; try assumption. intros i j Hi Hj. rewrite E by assumption. apply P; assumption. Qed.
Lemma det_block n (S S' : Z -> Z -> R) : (forall i j, (0 <= i < n)%Z -> (0 <= j < n)%Z -> S' i j = S i j) -> det (nat_n n) S' = det (nat_n n) S.
Proof. intros E. apply det_ext. intros i j Hi Hj. apply E; lia. Qed.

(** what adding does *)
Definition Madd (n : Z) Mp (Mv : arr) (M : Z -> Z -> R) := fun p j => if (j =? n)%Z then spv Mp Mv p else M p j.
Definition Nadd (n : Z) Np (Nv : arr) (Nd : R) (Nm : Z -> Z -> R) := fun i j => if (i =? n)%Z then (if (j =? n)%Z then Nd else spv Np Nv j) else if (j =? n)%Z then spv Np Nv i else Nm i j.
Lemma update_tracks f (w1 : schur) K M Nm : kkt K f -> sizes w1 -> mcols w1 -> (0 < sc_max w1)%Z -> ir_in (f_dim f) w1 -> repr (f_dim f) K M Nm w1 -> (0 < sc_n w1)%Z ->
  qrs (sc_n w1 - 1) (sc_n w1 - 1) 1 (Sf w1) (Qf w1) (Rf w1) -> upper (sc_n w1 - 1) (Rf w1) ->
  wp (updateSchurQR (N := N) (-1) w1) (fun w2 => sc_n w2 = sc_n w1 /\ sc_S w2 = sc_S w1 /\ sc_max w2 = sc_max w1 /\ sc_idx w2 = sc_idx w1 /\ sc_typ w2 = sc_typ w1 /\ tracks f w2 K M Nm).
Proof.
  intros KK HZ C Hm IR RR Hn Q1 U1. eapply wp_mono; [apply (update_append_ok eps zero infty zero_0 w1); assumption|]. cbv beta. intros w2 (Qa & Ra & d & E & HZ2 & Q2 & U2 & D2).
  rewrite E. cbn [sc_n sc_S sc_max sc_idx sc_typ]. do 5 (split; [reflexivity|]). rewrite <- E. constructor.
  - exact KK.
  - constructor.
    + exact HZ2.
    + rewrite E. destruct C as [C0 C1 C2 C3]. constructor; assumption.
    + revert Q2. rewrite E. exact (fun H => H).
    + revert U2. rewrite E. exact (fun H => H).
    + rewrite E. exact D2.
  - rewrite E. exact Hm.
  - rewrite E. exact IR.
  - rewrite E. destruct RR as [RC RN RS]. constructor; assumption.
Qed.
Theorem add_step f w K M Nm probe number update Mp (Mv : arr) Np (Nv : arr) (Nd : R) : tracks f w K M Nm -> valid (SAdd (N := N) probe number update Mp Mv Np Nv Nd) (f, w) ->
  wp (run_sop (N := N) (SAdd (N := N) probe number update Mp Mv Np Nv Nd) (f, w)) (fun s => fst s = f /\ sc_max (snd s) = sc_max w /\
    (sc_n (snd s) = sc_n w /\ tracks f (snd s) K M Nm /\ (snd s = w /\ (exists rhs : arr, zlen rhs = f_dim f /\ f_solve f rhs = None) \/ probe = true /\ (forall i j, (0 <= i < sc_n w)%Z -> (0 <= j < sc_n w)%Z -> Sf (snd s) i j = Sf w i j) /\
         (det (nat_n (sc_n w)) (Sf w) <> 0 -> 0 < det (nat_n (sc_n w)) (Sf w) * det (nat_n (sc_n w + 1)) (Sf (snd s)))) \/
     sc_n (snd s) = (sc_n w + 1)%Z /\ tracks f (snd s) K (Madd (sc_n w) Mp Mv M) (Nadd (sc_n w) Np Nv Nd Nm) /\ (forall k, (0 <= k <= sc_n w)%Z -> zn 0%Z (sc_idx (snd s)) k = (if (k =? sc_n w)%Z then number else zn 0%Z (sc_idx w) k) /\ zn 0%Z (sc_typ (snd s)) k = (if (k =? sc_n w)%Z then update else zn 0%Z (sc_typ w) k)) /\ (forall i j, (0 <= i < sc_n w)%Z -> (0 <= j < sc_n w)%Z -> Sf (snd s) i j = Sf w i j) /\
       (probe = true -> det (nat_n (sc_n w)) (Sf w) <> 0 -> det (nat_n (sc_n w)) (Sf w) * det (nat_n (sc_n w + 1)) (Sf (snd s)) <= 0))).
Proof.
  intros T (V1 & V2). cbn [fst snd] in V1, V2. destruct T as [KK [HZ C Q1 U1 D1] Tm IR RR]. unfold run_sop. apply wp_bind.
  eapply wp_mono; [apply (add_ok eps zero infty (f_dim f) (f_solve f) number update Mp Mv Np Nv Nd w); try assumption; [apply (k_dim _ _ _ _ _ KK)|intros rhs sol Lr Es; apply (k_sol _ _ _ _ _ KK rhs sol Lr Es)]|].
  cbv beta. intros [r w1] [(Er & Ew & Ex)|(Er & A)]; cbn [fst snd] in *; rewrite Er.
  { change (RET_MATRIX_FACTORISATION_FAILED =r? SUCCESSFUL_RETURN) with false. cbv iota. apply wp_ok. cbn [fst snd]. rewrite Ew. split; [reflexivity|]. split; [reflexivity|]. left. split; [reflexivity|]. split; [|left; split; [reflexivity|exact Ex]]. constructor; try assumption. constructor; assumption. }
  change (SUCCESSFUL_RETURN =r? SUCCESSFUL_RETURN) with true. cbv iota.
  pose proof (append_repr eps zero infty K f number update Mp Mv Np Nv Nd M Nm w w1 KK HZ V2 RR A) as RR1.
  pose proof (repr_sym eps zero infty (f_dim f) K _ _ w1 (k_sym _ _ _ _ _ KK) RR1) as SY1.
  destruct A as [Am An AQ AR Ad AZ AC AI AS Asym Anew Acol Acoln Aidx]. pose proof (z_n w HZ) as Zn.
  assert (Q1' : qrs (sc_n w1 - 1) (sc_n w1 - 1) 1 (Sf w1) (Qf w1) (Rf w1)).
  { rewrite An. replace (sc_n w + 1 - 1)%Z with (sc_n w) by lia. unfold SchurD.Qf, SchurD.Rf. rewrite AQ, AR, Am. apply (qrs_block _ (Sf w)); assumption. }
  assert (U1' : upper (sc_n w1 - 1) (Rf w1)) by (rewrite An; replace (sc_n w + 1 - 1)%Z with (sc_n w) by lia; unfold SchurD.Rf; rewrite AR, Am; exact U1).
  assert (DB : det (nat_n (sc_n w)) (Sf w1) = det (nat_n (sc_n w)) (Sf w)) by (apply det_block; exact AS).
  assert (UP : (probe = true -> det (nat_n (sc_n w)) (Sf w) <> 0 -> det (nat_n (sc_n w)) (Sf w) * det (nat_n (sc_n w + 1)) (Sf w1) <= 0) ->
    wp (w2 <- updateSchurQR (N := N) (-1) w1 ;; Ok (f, w2)) (fun s => fst s = f /\ sc_max (snd s) = sc_max w /\
    (sc_n (snd s) = sc_n w /\ tracks f (snd s) K M Nm /\ (snd s = w /\ (exists rhs : arr, zlen rhs = f_dim f /\ f_solve f rhs = None) \/ probe = true /\ (forall i j, (0 <= i < sc_n w)%Z -> (0 <= j < sc_n w)%Z -> Sf (snd s) i j = Sf w i j) /\
         (det (nat_n (sc_n w)) (Sf w) <> 0 -> 0 < det (nat_n (sc_n w)) (Sf w) * det (nat_n (sc_n w + 1)) (Sf (snd s)))) \/
     sc_n (snd s) = (sc_n w + 1)%Z /\ tracks f (snd s) K (Madd (sc_n w) Mp Mv M) (Nadd (sc_n w) Np Nv Nd Nm) /\ (forall k, (0 <= k <= sc_n w)%Z -> zn 0%Z (sc_idx (snd s)) k = (if (k =? sc_n w)%Z then number else zn 0%Z (sc_idx w) k) /\ zn 0%Z (sc_typ (snd s)) k = (if (k =? sc_n w)%Z then update else zn 0%Z (sc_typ w) k)) /\ (forall i j, (0 <= i < sc_n w)%Z -> (0 <= j < sc_n w)%Z -> Sf (snd s) i j = Sf w i j) /\
       (probe = true -> det (nat_n (sc_n w)) (Sf w) <> 0 -> det (nat_n (sc_n w)) (Sf w) * det (nat_n (sc_n w + 1)) (Sf (snd s)) <= 0)))).
  { intros PD. apply wp_bind. eapply wp_mono; [apply (update_tracks f w1 K (Madd (sc_n w) Mp Mv M) (Nadd (sc_n w) Np Nv Nd Nm) KK AZ AC); [rewrite Am; exact Tm|exact AI|exact RR1|lia|exact Q1'|exact U1']|]. cbv beta. intros w2 (E1 & E2 & E3 & E4 & E5 & T2). apply wp_ok. cbn [fst snd].
    assert (ES : forall i j, Sf w2 i j = Sf w1 i j) by (intros; unfold SchurD.Sf; now rewrite E2, E3).
    split; [reflexivity|]. split; [congruence|]. right. split; [congruence|]. split; [exact T2|]. split; [rewrite E4, E5; exact Aidx|]. split; [intros; rewrite ES; now apply AS|]. intros P1 P2. rewrite (det_block _ (Sf w1) (Sf w2)) by (intros; apply ES). now apply PD. }
  destruct probe; [|apply UP; discriminate].
  apply wp_bind. eapply wp_mono; [apply (calcdet_append_ok eps zero infty w1); try assumption; try lia|].
  { rewrite An, Ad. replace (sc_n w + 1 - 1)%Z with (sc_n w) by lia. rewrite DB. exact D1. }
  cbv beta. intros x Hx. rewrite An in Hx. replace (sc_n w + 1 - 1)%Z with (sc_n w) in Hx by lia. rewrite DB in Hx.
  set (d0 := det (nat_n (sc_n w)) (Sf w)) in *. set (d1 := det (nat_n (sc_n w + 1)) (Sf w1)) in *. destruct D1 as (D1 & D2).
  assert (DD : d0 <> 0 -> d0 * d1 = (sc_det w * x) * (d0 * d0)).
  { intros Nz. rewrite <- Hx by exact Nz. rewrite <- D2. ring. }
  assert (SQ : d0 <> 0 -> 0 < d0 * d0) by (intros; destruct (Rtotal_order d0 0) as [|[|]]; [nra|contradiction|nra]).
  rnum. destruct (Rltb_spec 0 (sc_det w * x)) as [G|G].
  - apply wp_ok. cbn [fst snd shrink sc_n sc_max]. split; [reflexivity|]. split; [exact Am|]. left. rewrite An. split; [lia|]. split.
    + pose proof (mono_le w1 AC) as MM. constructor.
      * exact KK.
      * constructor; unfold shrink; cbn [sc_max sc_n sc_S sc_Q sc_R sc_det sc_jc sc_ir sc_mv sc_idx sc_typ]; rewrite ?An; replace (sc_n w + 1 - 1)%Z with (sc_n w) by lia.
        -- destruct AZ. constructor; cbn [sc_max sc_n sc_S sc_Q sc_R sc_det sc_jc sc_ir sc_mv sc_idx sc_typ]; try assumption. lia.
        -- pose proof (c_ir w1 AC) as CI. pose proof (MM (sc_n w) (sc_n w1) ltac:(lia) ltac:(lia)) as CL. destruct AC as [C0' C1' C2' C3']. constructor; cbn [sc_max sc_n sc_S sc_Q sc_R sc_det sc_jc sc_ir sc_mv sc_idx sc_typ]; try assumption; [intros; apply C1'; lia|lia].
        -- rewrite An in Q1'. replace (sc_n w + 1 - 1)%Z with (sc_n w) in Q1' by lia. exact Q1'.
        -- rewrite An in U1'. replace (sc_n w + 1 - 1)%Z with (sc_n w) in U1' by lia. exact U1'.
        -- rewrite Ad. split; [exact D1|]. change (sc_det w * det (nat_n (sc_n w)) (Sf w1) = Rabs (det (nat_n (sc_n w)) (Sf w1))). rewrite DB. exact D2.
      * cbn [shrink sc_max]. rewrite Am. exact Tm.
      * intros k Hk. unfold shrink in *. cbn [sc_n sc_jc sc_ir] in *. rewrite An in Hk. replace (sc_n w + 1 - 1)%Z with (sc_n w) in Hk by lia. apply AI. pose proof (MM (sc_n w) (sc_n w1) ltac:(lia) ltac:(lia)). lia.
      * destruct RR as [RC RN (X & HX & HS)]. constructor; unfold shrink; cbn [sc_n]; rewrite ?An; replace (sc_n w + 1 - 1)%Z with (sc_n w) by lia.
        -- intros j y Hj. rewrite <- RC by exact Hj. rewrite <- Acol by exact Hj. reflexivity.
        -- exact RN.
        -- exists X. split; [exact HX|]. intros i j Hi Hj. rewrite <- HS by assumption. rewrite <- AS by assumption. reflexivity.
    + right. split; [reflexivity|]. split; [exact AS|]. intros Nz. change (0 < d0 * d1). rewrite DD by exact Nz. apply Rmult_lt_0_compat; [exact G|apply SQ, Nz].
  - apply UP. intros _ Nz. rewrite DD by exact Nz. specialize (SQ Nz). nra.
Qed.

Theorem del_step f w K M Nm probe idx : tracks f w K M Nm -> (0 <= idx < sc_n w)%Z ->
  wp (run_sop (N := N) (SDel (N := N) probe idx) (f, w)) (fun s => fst s = f /\ sc_max (snd s) = sc_max w /\
    (s = (f, w) /\ probe = true /\ det (nat_n (sc_n w)) (Sf w) * det (nat_n (sc_n w - 1)) (fun i j => Sf w (skip idx i) (skip idx j)) <= 0 \/
     sc_n (snd s) = (sc_n w - 1)%Z /\ tracks f (snd s) K (fun p j => M p (skip idx j)) (fun i j => Nm (skip idx i) (skip idx j)) /\
       (forall i j, (0 <= i < sc_n w - 1)%Z -> (0 <= j < sc_n w - 1)%Z -> Sf (snd s) i j = Sf w (skip idx i) (skip idx j)) /\
       (probe = true -> 0 <= det (nat_n (sc_n w)) (Sf w) * det (nat_n (sc_n w - 1)) (Sf (snd s))))).
Proof.
  intros T Hi. destruct T as [KK [HZ C Q1 U1 D1] Tm IR RR]. pose proof (z_n w HZ) as Zn.
  pose proof (repr_sym eps zero infty (f_dim f) K _ _ w (k_sym _ _ _ _ _ KK) RR) as SY.
  destruct (delete_undo (N := N) idx w HZ C Hi) as (wu & _ & _ & UN). { intros a b Ha Hb. apply SY; assumption. }
  assert (EU : probe = true -> exists w1, deleteFromSchurComplement (N := N) idx true w = Ok (SUCCESSFUL_RETURN, w1) /\ undoDeleteFromSchurComplement (N := N) idx w1 = Ok (SUCCESSFUL_RETURN, w)).
  { intros _. destruct (delete_undo (N := N) idx w HZ C Hi) as (w1 & E1 & _ & E2); [intros a b Ha Hb; apply SY; assumption|]. exists w1. split; assumption. }
  unfold run_sop. pose proof (delete_spec (N := N) probe idx w HZ C Hi) as DS. destruct (deleteFromSchurComplement (N := N) idx probe w) as [[r w1]| |] eqn:ED; cbn [wp fst snd] in DS; try contradiction. destruct DS as (-> & DS). cbn [bind].
  destruct (deleted_ok eps zero infty _ _ _ _ HZ C Hi DS) as (HZ1 & C1 & IR1 & VS & VC).
  pose proof (deleted_repr eps zero infty (f_dim f) K M Nm probe idx w w1 HZ C Hi DS RR) as RR1. destruct DS as [Dm Dn DQ DR Dd _ _ _ _ _ _ _ _ _].
  assert (Q1' : qrs (sc_n w1 + 1) (sc_n w1 + 1) 1 (Sf w) (Qf w1) (Rf w1)).
  { rewrite Dn. replace (sc_n w - 1 + 1)%Z with (sc_n w) by lia. unfold SchurD.Qf, SchurD.Rf. rewrite DQ, DR, Dm. exact Q1. }
  assert (U1' : upper (sc_n w1 + 1) (Rf w1)) by (rewrite Dn; replace (sc_n w - 1 + 1)%Z with (sc_n w) by lia; unfold SchurD.Rf; rewrite DR, Dm; exact U1).
  set (d0 := det (nat_n (sc_n w)) (Sf w)) in *. set (dm := det (nat_n (sc_n w - 1)) (fun i j => Sf w (skip idx i) (skip idx j))) in *.
  assert (UP : (probe = true -> 0 <= d0 * dm) -> wp (w2 <- updateSchurQR (N := N) idx w1 ;; Ok (f, w2)) (fun s => fst s = f /\ sc_max (snd s) = sc_max w /\
    (s = (f, w) /\ probe = true /\ d0 * dm <= 0 \/
     sc_n (snd s) = (sc_n w - 1)%Z /\ tracks f (snd s) K (fun p j => M p (skip idx j)) (fun i j => Nm (skip idx i) (skip idx j)) /\
       (forall i j, (0 <= i < sc_n w - 1)%Z -> (0 <= j < sc_n w - 1)%Z -> Sf (snd s) i j = Sf w (skip idx i) (skip idx j)) /\
       (probe = true -> 0 <= d0 * det (nat_n (sc_n w - 1)) (Sf (snd s)))))).
  { intros PD. apply wp_bind. eapply wp_mono; [apply (update_delete_ok eps zero infty zero_0 w1 idx (Sf w)); try assumption; lia|]. cbv beta. intros w2 (Qa & Ra & d & E & HZ2 & Q2 & U2 & D2).
    assert (ES : forall i j, (0 <= i < sc_n w - 1)%Z -> (0 <= j < sc_n w - 1)%Z -> Sf w2 i j = Sf w (skip idx i) (skip idx j)) by (intros i j Hi' Hj; rewrite <- VS by lia; rewrite E; reflexivity).
    apply wp_ok. cbn [fst snd]. split; [reflexivity|]. split; [rewrite E; exact Dm|]. right. split; [rewrite E; exact Dn|]. split; [|split; [exact ES|]].
    - constructor.
      + exact KK.
      + constructor.
        * exact HZ2.
        * rewrite E. destruct C1 as [C0' C1' C2' C3']. constructor; assumption.
        * revert Q2. rewrite E. exact (fun H => H).
        * revert U2. rewrite E. exact (fun H => H).
        * rewrite E. exact D2.
      + rewrite E. cbn [sc_max]. rewrite Dm. exact Tm.
      + rewrite E. exact (IR1 _ IR).
      + rewrite E. destruct RR1 as [RC RN RS]. constructor; assumption.
    - intros P. rewrite (det_block _ (fun i j => Sf w (skip idx i) (skip idx j)) (Sf w2)) by exact ES. apply PD, P. }
  destruct probe; [|apply UP; discriminate].
  destruct (EU eq_refl) as (w1' & E1 & E2). rewrite E1 in ED. injection ED as ->. clear EU.
  apply wp_bind. eapply wp_mono; [apply (calcdet_delete_ok eps zero infty zero_0 w1 idx (Sf w)); try assumption; lia|]. cbv beta. rewrite Dn. fold dm. intros x (X1 & X2). destruct D1 as (D1 & D2). fold d0 in D2.
  assert (DD : d0 * dm = (sc_det w * x) * (Rabs d0 * Rabs dm)).
  { rewrite <- D2, <- X2. assert (sc_det w * sc_det w = 1) by (destruct D1 as [-> | ->]; ring). assert (x * x = 1) by (destruct X1 as [-> | ->]; ring).
    replace (sc_det w * x * (sc_det w * d0 * (x * dm))) with ((sc_det w * sc_det w) * (x * x) * (d0 * dm)) by ring. rewrite H, H0. ring. }
  assert (PP : 0 <= Rabs d0 * Rabs dm) by (apply Rmult_le_pos; apply Rabs_pos).
  rnum. destruct (Rltb_spec (sc_det w * x) 0) as [G|G].
  - rewrite E2. cbn [bind]. apply wp_ok. cbn [fst snd]. split; [reflexivity|]. split; [reflexivity|]. left. split; [reflexivity|]. split; [reflexivity|]. rewrite DD. nra.
  - apply UP. intros _. rewrite DD. apply Rmult_le_pos; [lra|exact PP].
Qed.

Lemma history_tracks f w K M Nm : history f w K M Nm -> tracks f w K M Nm.
Proof.
  induction 1 as [f K M Nm m phys KK Hm Hp|f w K M Nm f' K' w' H IH KK E|f w K M Nm probe number update Mp Mv Np Nv Nd w' H IH V E En|f w K M Nm probe idx w' H IH V E En|f w K M Nm op w' H IH V E Hop En].
  - now apply new_tracks.
  - pose proof (reset_tracks f w K M Nm f' K' M Nm IH KK) as G. rewrite E in G. cbn [wp fst snd] in G. apply G.
  - pose proof (add_step f w K M Nm probe number update Mp Mv Np Nv Nd IH V) as G. rewrite E in G. cbn [wp fst snd] in G. destruct G as (_ & _ & [(En' & _)|(_ & T & _)]); [lia|exact T].
  - pose proof (del_step f w K M Nm probe idx IH V) as G. rewrite E in G. cbn [wp fst snd] in G. destruct G as (_ & _ & [(Es & _)|(_ & T & _)]); [injection Es as ->; lia|exact T].
  - destruct op as [probe number update Mp Mv Np Nv Nd|probe idx|f'].
    + pose proof (add_step f w K M Nm probe number update Mp Mv Np Nv Nd IH V) as G. rewrite E in G. cbn [wp fst snd] in G. destruct G as (_ & _ & [(_ & T & _)|(En' & _)]); [exact T|lia].
    + pose proof (del_step f w K M Nm probe idx IH V) as G. rewrite E in G. cbn [wp fst snd] in G. destruct G as (_ & _ & [(Es & _)|(En' & _)]); [injection Es as ->; exact IH|lia].
    + contradiction.
Qed.

(** C55: after every history the stored Q and R factorise the stored S and detS
    is the sign of its determinant. *)
Notation ent w a i j := (zn (0 : R) a (i + j * sc_max w)%Z).
Theorem C55_factorisation f w K M Nm : history f w K M Nm -> let n := sc_n w in
  (forall i j, (0 <= i < n)%Z -> (0 <= j < n)%Z -> rsum 0 n (fun k => ent w (sc_Q w) i k * ent w (sc_R w) k j) = ent w (sc_S w) i j) /\
  (forall i j, (0 <= i < n)%Z -> (0 <= j < n)%Z -> rsum 0 n (fun k => ent w (sc_Q w) k i * ent w (sc_Q w) k j) = if (i =? j)%Z then 1 else 0) /\
  (forall i j, (0 <= i < n)%Z -> (0 <= j < n)%Z -> rsum 0 n (fun k => ent w (sc_Q w) i k * ent w (sc_Q w) j k) = if (i =? j)%Z then 1 else 0) /\
  (forall i j, (0 <= j < i)%Z -> (i < n)%Z -> ent w (sc_R w) i j = 0) /\
  (0 < det (Z.to_nat n) (fun i j => ent w (sc_S w) i j) -> sc_det w = 1) /\ (det (Z.to_nat n) (fun i j => ent w (sc_S w) i j) < 0 -> sc_det w = -1).
Proof.
  intros H. destruct (history_tracks _ _ _ _ _ H) as [KK [HZ C [P A B D] U1 (S1 & S2)] Tm IR RR]. cbv zeta. split; [exact P|]. split; [exact B|]. split; [exact A|]. split; [intros i j H1 H2; apply U1; lia|].
  change (det (nat_n (sc_n w)) (fun i j => ent w (sc_S w) i j)) with (det (nat_n (sc_n w)) (Sf w)). split; intros G.
  - rewrite Rabs_pos_eq in S2 by lra. destruct S1 as [E|E]; [exact E|]. rewrite E in S2. lra.
  - rewrite Rabs_left in S2 by lra. destruct S1 as [E|E]; [|exact E]. rewrite E in S2. lra.
Qed.

(** every permitted operation runs without undefined behaviour and continues the history *)
Theorem C55_total f w K M Nm op : history f w K M Nm -> valid op (f, w) ->
  exists f' w' K' M' N', run_sop op (f, w) = Ok (f', w') /\ history f' w' K' M' N' /\ sc_max w' = sc_max w.
Proof.
  intros H V. pose proof (history_tracks _ _ _ _ _ H) as T. destruct op as [probe number update Mp Mv Np Nv Nd|probe idx|f'].
  - pose proof (add_step f w K M Nm probe number update Mp Mv Np Nv Nd T V) as G. destruct (run_sop _ _) as [[f' w']| |] eqn:E; cbn [wp fst snd] in G; try contradiction. destruct G as (-> & Em & [(En & _)|(En & _)]).
    + exists f, w', K, M, Nm. split; [reflexivity|]. split; [|exact Em]. eapply h_none; [exact H|exact V|exact E|exact I|exact En].
    + exists f, w', K. eexists. eexists. split; [reflexivity|]. split; [|exact Em]. eapply h_add; [exact H|exact V|exact E|exact En].
  - pose proof (del_step f w K M Nm probe idx T V) as G. destruct (run_sop _ _) as [[f' w']| |] eqn:E; cbn [wp fst snd] in G; try contradiction. destruct G as (-> & Em & [(Es & _)|(En & _)]).
    + injection Es as ->. exists f, w, K, M, Nm. split; [reflexivity|]. split; [exact H|reflexivity].
    + exists f, w', K. eexists. eexists. split; [reflexivity|]. split; [|exact Em]. eapply h_del; [exact H|exact V|exact E|exact En].
  - destruct V as (K' & KK). pose proof (reset_tracks f w K M Nm f' K' M Nm T KK) as G. destruct (run_sop _ _) as [[f'' w']| |] eqn:E; cbn [wp fst snd] in G; try contradiction. destruct G as (-> & _ & _).
    exists f', w', K', M, Nm. split; [reflexivity|]. split; [eapply h_reset; eassumption|]. cbn [run_sop] in E. unfold schur_reset in E. destruct (if (0 <? sc_max w)%Z then _ else _) as [jc| |]; cbn [bind] in E; try discriminate. injection E as <-. reflexivity.
Qed.

(** solves with the factorisation are exact; a singular S is reported *)
Theorem C55_backsolve f w K M Nm (rhs sol : arr) : history f w K M Nm -> zlen rhs = sc_n w -> zlen sol = sc_n w ->
  let S := fun i j => ent w (sc_S w) i j in
  exists x, backsolveSchurQR (N := N) w (sc_n w) rhs 1 sol = Ok (if Req_EM_T (det (Z.to_nat (sc_n w)) S) 0 then RET_QR_FACTORISATION_FAILED else SUCCESSFUL_RETURN, x) /\ zlen x = sc_n w /\
    (det (Z.to_nat (sc_n w)) S <> 0 -> forall i, (0 <= i < sc_n w)%Z -> rsum 0 (sc_n w) (fun j => S i j * zn 0 x j) = zn 0 rhs i).
Proof.
  intros H Lr Ls. destruct (history_tracks _ _ _ _ _ H) as [KK [HZ C Q U S0] Tm IR RR]. destruct HZ as [Zn ZS ZQ ZR Zjc Zidx Ztyp].
  pose proof (backsolve_ok eps zero infty w (sc_n w) (Sf w) rhs sol Zn ZQ ZR Q U Lr Ls) as G. cbv zeta. change (fun i j => ent w (sc_S w) i j) with (Sf w).
  destruct (backsolveSchurQR _ _ _ _ _) as [[r x]| |]; cbn [wp fst snd] in G; try contradiction. destruct G as (Lx & G1 & G2). exists x. destruct (Req_EM_T (det (nat_n (sc_n w)) (Sf w)) 0) as [E|E].
  - rewrite (G2 E). split; [reflexivity|]. split; [exact Lx|]. contradiction.
  - destruct (G1 E) as (-> & G3). split; [reflexivity|]. split; [exact Lx|]. intros _. exact G3.
Qed.

(** the curvature test of removeBound and removeConstraint: an update is taken
    back exactly when the determinants do not have the required signs *)
Theorem C55_probe_add f w K M Nm number update Mp (Mv : arr) Np (Nv : arr) (Nd : R) w' : history f w K M Nm -> valid (SAdd (N := N) true number update Mp Mv Np Nv Nd) (f, w) ->
  det (Z.to_nat (sc_n w)) (fun i j => ent w (sc_S w) i j) <> 0 -> run_sop (SAdd (N := N) true number update Mp Mv Np Nv Nd) (f, w) = Ok (f, w') -> (forall rhs : arr, zlen rhs = f_dim f -> f_solve f rhs <> None) ->
  let d0 := det (Z.to_nat (sc_n w)) (fun i j => ent w (sc_S w) i j) in let d1 := det (Z.to_nat (sc_n w + 1)) (fun i j => ent w' (sc_S w') i j) in
  (0 < d0 * d1 -> sc_n w' = sc_n w) /\ (d0 * d1 <= 0 -> sc_n w' = (sc_n w + 1)%Z) /\
  (forall i j, (0 <= i < sc_n w)%Z -> (0 <= j < sc_n w)%Z -> ent w' (sc_S w') i j = ent w (sc_S w) i j).
Proof.
  intros H V Nz E Nw. pose proof (add_step f w K M Nm true number update Mp Mv Np Nv Nd (history_tracks _ _ _ _ _ H) V) as G. rewrite E in G. cbn [wp fst snd] in G. destruct G as (_ & Em & G). cbv zeta.
  change (fun i j => ent w (sc_S w) i j) with (Sf w) in *. change (fun i j => ent w' (sc_S w') i j) with (Sf w') in *.
  destruct G as [(En & _ & [(_ & rhs & G1 & G2)|(_ & G1 & G2)])|(En & _ & _ & G1 & G2)].
  - elim (Nw rhs G1 G2).
  - specialize (G2 Nz). split; [intros _; exact En|]. split; [intros; lra|]. exact G1.
  - specialize (G2 eq_refl Nz). split; [intros; lra|]. split; [intros _; exact En|]. exact G1.
Qed.
Theorem C55_probe_del f w K M Nm idx w' : history f w K M Nm -> (0 <= idx < sc_n w)%Z -> run_sop (SDel (N := N) true idx) (f, w) = Ok (f, w') ->
  let d0 := det (Z.to_nat (sc_n w)) (fun i j => ent w (sc_S w) i j) in
  let d1 := det (Z.to_nat (sc_n w - 1)) (fun i j => ent w (sc_S w) (if (i <? idx)%Z then i else (i + 1)%Z) (if (j <? idx)%Z then j else (j + 1)%Z)) in
  (d0 * d1 < 0 -> w' = w) /\ (0 < d0 * d1 -> sc_n w' = (sc_n w - 1)%Z) /\ (w' = w \/ sc_n w' = (sc_n w - 1)%Z).
Proof.
  intros H V E. pose proof (del_step f w K M Nm true idx (history_tracks _ _ _ _ _ H) V) as G. rewrite E in G. cbn [wp fst snd] in G. destruct G as (_ & Em & G). cbv zeta.
  change (fun i j => ent w (sc_S w) i j) with (Sf w) in *. change (fun i j => ent w (sc_S w) (if (i <? idx)%Z then i else (i + 1)%Z) (if (j <? idx)%Z then j else (j + 1)%Z)) with (fun i j => Sf w (skip idx i) (skip idx j)).
  destruct G as [(Es & _ & G)|(En & _ & G1 & G2)].
  - injection Es as ->. split; [intros _; reflexivity|]. split; [intros; lra|]. now left.
  - specialize (G2 eq_refl). rewrite (det_block _ (fun i j => Sf w (skip idx i) (skip idx j)) (Sf w')) in G2 by exact G1. split; [intros; lra|]. split; [intros _; exact En|]. now right.
Qed.

(** C65: taking a deletion back restores the whole object *)
Theorem C65_undo_restores f w K M Nm idx : history f w K M Nm -> (0 <= idx < sc_n w)%Z ->
  exists w1, deleteFromSchurComplement (N := N) idx true w = Ok (SUCCESSFUL_RETURN, w1) /\ sc_n w1 = (sc_n w - 1)%Z /\ undoDeleteFromSchurComplement (N := N) idx w1 = Ok (SUCCESSFUL_RETURN, w).
Proof.
  intros H Hi. destruct (history_tracks _ _ _ _ _ H) as [KK [HZ C _ _ _] Tm IR RR]. destruct (delete_undo (N := N) idx w HZ C Hi) as (w1 & E1 & D & E2).
  - intros a b Ha Hb. apply (repr_sym eps zero infty (f_dim f) K _ _ w (k_sym _ _ _ _ _ KK) RR); assumption.
  - exists w1. split; [exact E1|]. split; [apply (d_n _ _ _ _ D)|exact E2].
Qed.

(** *** C66: the solve with the updated KKT matrix *)
Lemma find_pos_ok (l : list Z) n idx : (0 <= n <= zlen l)%Z -> wp (find_pos l n idx) (fun r => match r with Some i => (0 <= i < n)%Z /\ zn 0%Z l i = idx | None => forall i, (0 <= i < n)%Z -> zn 0%Z l i <> idx end).
Proof.
  intros Hn. unfold find_pos. apply wp_for_up with (I := fun k r => match r with Some i => (0 <= i < n)%Z /\ zn 0%Z l i = idx | None => forall i, (0 <= i < k)%Z -> zn 0%Z l i <> idx end); [lia| | |].
  - intros i; lia.
  - intros k [i|] Hk J; [apply wp_ok; exact J|]. rewrite (rd_ok 0%Z) by lia. cbn [bind]. apply wp_ok. destruct (Z.eqb_spec (zn 0%Z l k) idx) as [E|E]; [split; [lia|exact E]|]. intros i Hi. destruct (Z.eq_dec i k) as [->|]; [exact E|]. apply J. lia.
  - intros r J. exact J.
Qed.
Record step_data (w : schur) (FR : list Z) (nFR : Z) (AC : list Z) (nAC : Z) (tA tB x y : arr) : Prop := {
  s_FR : (0 <= nFR <= zlen FR)%Z; s_AC : (0 <= nAC <= zlen AC)%Z; s_tA : (nFR <= zlen tA)%Z; s_tB : (nAC <= zlen tB)%Z; s_x : (nFR <= zlen x)%Z; s_y : (nAC <= zlen y)%Z;
  s_FRd : forall i j, (0 <= i < nFR)%Z -> (0 <= j < nFR)%Z -> zn 0%Z FR i = zn 0%Z FR j -> i = j;
  s_ACd : forall i j, (0 <= i < nAC)%Z -> (0 <= j < nAC)%Z -> zn 0%Z AC i = zn 0%Z AC j -> i = j;
  s_typ : forall j, (0 <= j < sc_n w)%Z -> (0 <= zn 0%Z (sc_typ w) j <= 3)%Z;
  s_dis : forall i j, (0 <= i < sc_n w)%Z -> (0 <= j < sc_n w)%Z -> zn 0%Z (sc_typ w) i = zn 0%Z (sc_typ w) j -> zn 0%Z (sc_idx w) i = zn 0%Z (sc_idx w) j -> i = j }.
Definition qval (w : schur) (FR : list Z) (nFR : Z) (AC : list Z) (nAC : Z) (tA tB : arr) (j : Z) (v : R) : Prop :=
  (zn 0%Z (sc_typ w) j = SUT_VarFixed \/ zn 0%Z (sc_typ w) j = SUT_ConRemoved -> v = 0) /\
  (zn 0%Z (sc_typ w) j = SUT_VarFreed -> forall i, (0 <= i < nFR)%Z -> zn 0%Z FR i = zn 0%Z (sc_idx w) j -> v = - zn 0 tA i) /\
  (zn 0%Z (sc_typ w) j = SUT_ConAdded -> forall i, (0 <= i < nAC)%Z -> zn 0%Z AC i = zn 0%Z (sc_idx w) j -> v = zn 0 tB i).
Lemma step_q_ok (w : schur) FR nFR AC nAC (tA tB x y fresh : arr) : sizes w -> step_data w FR nFR AC nAC tA tB x y -> zlen fresh = sc_n w ->
  wp (step_q (N := N) w FR nFR AC nAC tA tB fresh) (fun r => fst r = true /\ zlen (snd r) = sc_n w /\ forall j, (0 <= j < sc_n w)%Z -> qval w FR nFR AC nAC tA tB j (zn 0 (snd r) j)).
Proof.
  intros HZ [F1 F2 F3 F4 F5 F6 F7 F8 F9 F10] Lf. destruct HZ as [Zn ZS ZQ ZR Zjc Zidx Ztyp]. unfold step_q.
  apply wp_for_up with (I := fun k (r : bool * arr) => fst r = true /\ zlen (snd r) = sc_n w /\ forall j, (0 <= j < k)%Z -> qval w FR nFR AC nAC tA tB j (zn 0 (snd r) j)); [lia| | |].
  - cbn [fst snd]. split; [reflexivity|]. split; [exact Lf|]. intros; lia.
  - intros k [b q] Hk (E & L & V). cbn [fst snd] in *. rewrite E. cbn [negb]. rewrite (rd_ok 0%Z) by lia. cbn [bind]. rewrite (rd_ok 0%Z) by lia. cbn [bind]. specialize (F9 k Hk).
    assert (UPD : forall v, qval w FR nFR AC nAC tA tB k v -> wp (q1 <- wr q k v ;; Ok (true, q1)) (fun r => fst r = true /\ zlen (snd r) = sc_n w /\ forall j, (0 <= j < k + 1)%Z -> qval w FR nFR AC nAC tA tB j (zn 0 (snd r) j))).
    { intros v Qv. rewrite wr_ok by lia. cbn [bind]. apply wp_ok. cbn [fst snd]. rewrite zlen_zupd. split; [reflexivity|]. split; [exact L|]. intros j Hj. rewrite zn_zupd by lia. destruct (Z.eqb_spec j k) as [->|]; [exact Qv|apply V; lia]. }
    unfold SUT_VarFixed, SUT_VarFreed, SUT_ConAdded, SUT_ConRemoved in *. set (t := zn 0%Z (sc_typ w) k) in *. set (ix := zn 0%Z (sc_idx w) k) in *.
    destruct (Z.eqb_spec t 0) as [T0|T0]; [|destruct (Z.eqb_spec t 3) as [T3|T3]]; cbn [orb].
    + apply UPD. unfold qval, SUT_VarFixed, SUT_VarFreed, SUT_ConAdded, SUT_ConRemoved. fold t. split; [intros _; reflexivity|]. split; intros; lia.
    + apply UPD. unfold qval, SUT_VarFixed, SUT_VarFreed, SUT_ConAdded, SUT_ConRemoved. fold t. split; [intros _; reflexivity|]. split; intros; lia.
    + destruct (Z.eqb_spec t 1) as [T1|T1].
      * apply wp_bind. eapply wp_mono; [apply (find_pos_ok FR nFR ix F1)|]. cbv beta. intros [i|] Hf.
        -- destruct Hf as (Hi & Ei). rewrite (rd_ok 0) by lia. cbn [bind]. rnum. apply UPD. unfold qval, SUT_VarFixed, SUT_VarFreed, SUT_ConAdded, SUT_ConRemoved. fold t ix. split; [lia|]. split; [|intros; lia]. intros _ i' Hi' E'. rewrite (F7 i' i); [reflexivity|lia|lia|congruence].
        -- apply wp_ok. cbn [fst snd]. split; [reflexivity|]. split; [exact L|]. intros j Hj. destruct (Z.eq_dec j k) as [->|]; [|apply V; lia]. unfold qval, SUT_VarFixed, SUT_VarFreed, SUT_ConAdded, SUT_ConRemoved. fold t ix. split; [lia|]. split; [|intros; lia]. intros _ i Hi Ei. elim (Hf i Hi Ei).
      * destruct (Z.eqb_spec t 2) as [T2|T2]; [|lia].
        apply wp_bind. eapply wp_mono; [apply (find_pos_ok AC nAC ix F2)|]. cbv beta. intros [i|] Hf.
        -- destruct Hf as (Hi & Ei). rewrite (rd_ok 0) by lia. cbn [bind]. rnum. apply UPD. unfold qval, SUT_VarFixed, SUT_VarFreed, SUT_ConAdded, SUT_ConRemoved. fold t ix. split; [lia|]. split; [intros; lia|]. intros _ i' Hi' E'. rewrite (F8 i' i); [reflexivity|lia|lia|congruence].
        -- apply wp_ok. cbn [fst snd]. split; [reflexivity|]. split; [exact L|]. intros j Hj. destruct (Z.eq_dec j k) as [->|]; [|apply V; lia]. unfold qval, SUT_VarFixed, SUT_VarFreed, SUT_ConAdded, SUT_ConRemoved. fold t ix. split; [lia|]. split; [intros; lia|]. intros _ i Hi Ei. elim (Hf i Hi Ei).
  - intros r J. exact J.
Qed.
(** entry i of the result is that of the update of kind T with the same number, if there is one *)
Definition placed (w : schur) (T : Z) (L : list Z) (nL n : Z) (g : Z -> R) (x x' : arr) : Prop := zlen x' = zlen x /\ forall i, (0 <= i < nL)%Z ->
  (forall j, (0 <= j < n)%Z -> zn 0%Z (sc_typ w) j = T -> zn 0%Z (sc_idx w) j = zn 0%Z L i -> zn 0 x' i = g j) /\
  ((forall j, (0 <= j < n)%Z -> zn 0%Z (sc_typ w) j = T -> zn 0%Z (sc_idx w) j <> zn 0%Z L i) -> zn 0 x' i = zn 0 x i).
Lemma placed_skip w T L nL n g x x' : placed w T L nL n g x x' -> (zn 0%Z (sc_typ w) n <> T \/ forall i, (0 <= i < nL)%Z -> zn 0%Z L i <> zn 0%Z (sc_idx w) n) -> (0 <= n)%Z -> placed w T L nL (n + 1) g x x'.
Proof.
  intros (Lx & P) H Hn. split; [exact Lx|]. intros i Hi. destruct (P i Hi) as (P1 & P2). split.
  - intros j Hj Tj Ij. destruct (Z.eq_dec j n) as [->|]; [|apply P1; [lia|assumption..]]. destruct H as [H|H]; [contradiction|]. elim (H i Hi). congruence.
  - intros A. apply P2. intros j Hj. apply A. lia.
Qed.
Lemma placed_put w T L nL n g x x' i0 : placed w T L nL n g x x' -> zn 0%Z (sc_typ w) n = T -> (0 <= i0 < nL)%Z -> zn 0%Z L i0 = zn 0%Z (sc_idx w) n -> (nL <= zlen x)%Z -> (0 <= n)%Z ->
  (forall i j, (0 <= i < nL)%Z -> (0 <= j < nL)%Z -> zn 0%Z L i = zn 0%Z L j -> i = j) ->
  (forall j, (0 <= j < n)%Z -> zn 0%Z (sc_typ w) j = T -> zn 0%Z (sc_idx w) j <> zn 0%Z (sc_idx w) n) -> placed w T L nL (n + 1) g x (zupd x' i0 (g n)).
Proof.
  intros (Lx & P) Tn Hi0 E0 Hx Hn D U. split; [now rewrite zlen_zupd|]. intros i Hi. destruct (P i Hi) as (P1 & P2). rewrite zn_zupd by lia. destruct (Z.eqb_spec i i0) as [->|Ni]; split.
  - intros j Hj Tj Ij. destruct (Z.eq_dec j n) as [->|]; [reflexivity|]. elim (U j); [lia|exact Tj|congruence].
  - intros A. elim (A n); [lia|exact Tn|congruence].
  - intros j Hj Tj Ij. destruct (Z.eq_dec j n) as [->|]; [|apply P1; [lia|assumption..]]. elim Ni. apply D; [lia|lia|congruence].
  - intros A. apply P2. intros j Hj. apply A. lia.
Qed.
Lemma step_transfer_ok (w : schur) FR nFR AC nAC (tA tB x y p : arr) : sizes w -> step_data w FR nFR AC nAC tA tB x y -> zlen p = sc_n w ->
  wp (step_transfer (N := N) w FR nFR AC nAC p x y) (fun r => let '(ok, x', y') := r in ok = true /\ placed w SUT_VarFreed FR nFR (sc_n w) (zn 0 p) x x' /\ placed w SUT_ConAdded AC nAC (sc_n w) (fun j => - zn 0 p j) y y').
Proof.
  intros HZ [F1 F2 F3 F4 F5 F6 F7 F8 F9 F10] Lp. destruct HZ as [Zn ZS ZQ ZR Zjc Zidx Ztyp]. unfold step_transfer.
  apply wp_for_up with (I := fun k (r : bool * arr * arr) => let '(ok, x', y') := r in ok = true /\ placed w SUT_VarFreed FR nFR k (zn 0 p) x x' /\ placed w SUT_ConAdded AC nAC k (fun j => - zn 0 p j) y y'); [lia| | |].
  - split; [reflexivity|]. split; (split; [reflexivity|]; intros i Hi; split; [intros; lia|reflexivity]).
  - intros k [[b x1] y1] Hk (-> & P1 & P2). cbn [negb]. rewrite (rd_ok 0%Z) by lia. cbn [bind]. rewrite (rd_ok 0%Z) by lia. cbn [bind]. specialize (F9 k Hk).
    pose proof (proj1 P1) as L1. pose proof (proj1 P2) as L2.
    destruct (Z.eqb_spec (zn 0%Z (sc_typ w) k) SUT_VarFixed) as [T0|T0]; [|destruct (Z.eqb_spec (zn 0%Z (sc_typ w) k) SUT_ConRemoved) as [T3|T3]]; cbn [orb].
    + apply wp_ok. split; [reflexivity|]. split; apply placed_skip; try assumption; try lia; left; rewrite T0; discriminate.
    + apply wp_ok. split; [reflexivity|]. split; apply placed_skip; try assumption; try lia; left; rewrite T3; discriminate.
    + destruct (Z.eqb_spec (zn 0%Z (sc_typ w) k) SUT_VarFreed) as [T1|T1].
      * assert (P2' : placed w SUT_ConAdded AC nAC (k + 1) (fun j => - zn 0 p j) y y1) by (apply placed_skip; [assumption|left; rewrite T1; discriminate|lia]).
        apply wp_bind. eapply wp_mono; [apply (find_pos_ok FR nFR _ F1)|]. cbv beta. intros [i|] Hf.
        -- destruct Hf as (Hi & Ei). rewrite (rd_ok 0) by lia. cbn [bind]. rcar. rewrite wr_ok by lia. cbn [bind]. apply wp_ok. split; [reflexivity|]. split; [|exact P2'].
           apply placed_put; try assumption; try lia. intros j Hj Tj Ij. pose proof (F10 j k ltac:(lia) ltac:(lia) ltac:(congruence) Ij). lia.
        -- apply wp_ok. split; [reflexivity|]. split; [|exact P2']. apply placed_skip; [assumption|right; exact Hf|lia].
      * destruct (Z.eqb_spec (zn 0%Z (sc_typ w) k) SUT_ConAdded) as [T2|T2]; [|unfold SUT_VarFixed, SUT_VarFreed, SUT_ConAdded, SUT_ConRemoved in *; lia].
        assert (P1' : placed w SUT_VarFreed FR nFR (k + 1) (zn 0 p) x x1) by (apply placed_skip; [assumption|left; exact T1|lia]).
        apply wp_bind. eapply wp_mono; [apply (find_pos_ok AC nAC _ F2)|]. cbv beta. intros [i|] Hf.
        -- destruct Hf as (Hi & Ei). rewrite (rd_ok 0) by lia. cbn [bind]. rcar. rewrite wr_ok by lia. cbn [bind]. apply wp_ok. split; [reflexivity|]. split; [exact P1'|]. rnum.
           apply (placed_put w SUT_ConAdded AC nAC k (fun j => - zn 0 p j)); try assumption; try lia. intros j Hj Tj Ij. pose proof (F10 j k ltac:(lia) ltac:(lia) ltac:(congruence) Ij). lia.
        -- apply wp_ok. split; [reflexivity|]. split; [exact P1'|]. apply placed_skip; [assumption|right; exact Hf|lia].
  - intros [[b x1] y1] J. exact J.
Qed.

Theorem C66_updated_solve f w K M Nm FR nFR AC nAC (tA tB fresh fresh_p rhs sol x y : arr) : history f w K M Nm -> step_data w FR nFR AC nAC tA tB x y ->
  zlen fresh = sc_n w -> zlen fresh_p = sc_n w -> zlen rhs = f_dim f -> zlen sol = f_dim f ->
  (forall i, (0 <= i < f_dim f)%Z -> rsum 0 (f_dim f) (fun j => K i j * zn 0 sol j) = zn 0 rhs i) -> det (Z.to_nat (sc_n w)) (fun i j => ent w (sc_S w) i j) <> 0 ->
  wp (stepCalcBacksolveSchur (N := N) f w FR nFR AC nAC tA tB fresh fresh_p rhs sol x y) (fun r =>
    fst r = RET_MATRIX_FACTORISATION_FAILED \/
    fst r = SUCCESSFUL_RETURN /\ let '(rhs', sol', x', y') := snd r in exists p q : Z -> R,
      (forall j, (0 <= j < sc_n w)%Z -> qval w FR nFR AC nAC tA tB j (q j)) /\
      (forall i, (0 <= i < f_dim f)%Z -> rsum 0 (f_dim f) (fun j => K i j * zn 0 sol' j) + rsum 0 (sc_n w) (fun j => M i j * p j) = zn 0 rhs i) /\
      (forall i, (0 <= i < sc_n w)%Z -> rsum 0 (f_dim f) (fun j => M j i * zn 0 sol' j) + rsum 0 (sc_n w) (fun j => Nm i j * p j) = q i) /\
      placed w SUT_VarFreed FR nFR (sc_n w) p x x' /\ placed w SUT_ConAdded AC nAC (sc_n w) (fun j => - p j) y y').
Proof.
  intros H SD Lf Lfp Lr Ls KS Nz. destruct (history_tracks _ _ _ _ _ H) as [KK [HZ C Q U S0] Tm IR RR]. unfold stepCalcBacksolveSchur.
  apply wp_bind. eapply wp_mono; [apply (step_q_ok w FR nFR AC nAC tA tB x y fresh); assumption|]. cbv beta. intros [b q] (Eb & Lq & Vq). cbn [fst snd] in *. rewrite Eb. cbn [negb].
  apply wp_bind. eapply wp_mono; [apply (mtt_ok eps zero infty (f_dim f) w sol q true); assumption|]. cbv beta. intros q1 (Lq1 & Vq1).
  pose proof HZ as Z'. destruct Z' as [Zn ZS ZQ ZR Zjc Zidx Ztyp].
  apply wp_bind. eapply wp_mono; [apply (backsolve_ok eps zero infty w (sc_n w) (Sf w) q1 fresh_p); assumption|]. cbv beta. intros [r p] (Lp & G & _). cbn [fst snd] in *. destruct (G Nz) as (_ & Sp).
  apply wp_bind. eapply wp_mono; [apply (mt_ok eps zero infty (f_dim f) w p rhs); assumption|]. cbv beta. intros rhs' (Lr' & Vr').
  destruct (f_solve f rhs') as [sol'|] eqn:Es; [|apply wp_ok; now left]. destruct (k_sol _ _ _ _ _ KK rhs' sol' Lr' Es) as (Ls' & Vs').
  apply wp_bind. eapply wp_mono; [apply (step_transfer_ok w FR nFR AC nAC tA tB x y p); assumption|]. cbv beta. intros [[ok x'] y'] (-> & P1 & P2). apply wp_ok. right. cbn [fst snd]. split; [reflexivity|].
  destruct RR as [RC RN (X & HX & HS)]. set (dim := f_dim f) in *. set (n := sc_n w) in *.
  assert (MC : forall i, (0 <= i < dim)%Z -> rsum 0 n (fun j => colsum w j (fun q => kd q i) * zn 0 p j) = rsum 0 n (fun j => M i j * zn 0 p j)).
  { intros i Hi. apply rsum_ext. intros j Hj. f_equal. rewrite RC by exact Hj. rewrite (rsum_delta 0 dim i); [rewrite kd_same; ring|exact Hi|]. intros k Hk Nk. rewrite kd_ne by exact Nk. ring. }
  exists (zn 0 p), (zn 0 q). split; [exact Vq|]. split; [|split; [|split; [exact P1|exact P2]]].
  - intros i Hi. rewrite Vs' by exact Hi. rewrite Vr' by exact Hi. rewrite MC by exact Hi. ring.
  - (* sol' = sol - X p *)
    assert (E : forall i, (0 <= i < dim)%Z -> zn 0 sol' i = zn 0 sol i - rsum 0 n (fun j => X i j * zn 0 p j)).
    { intros i Hi. cut (zn 0 sol' i - (zn 0 sol i - rsum 0 n (fun j => X i j * zn 0 p j)) = 0); [lra|].
      apply (k_inj _ _ _ _ _ KK (fun i => zn 0 sol' i - (zn 0 sol i - rsum 0 n (fun j => X i j * zn 0 p j)))); [|exact Hi]. intros a Ha.
      rewrite (rsum_ext 0 _ _ (fun j => (K a j * zn 0 sol' j - K a j * zn 0 sol j) + rsum 0 n (fun k => K a j * X j k * zn 0 p k))).
      2:{ intros j Hj. rewrite (rsum_ext 0 n (fun k => K a j * X j k * zn 0 p k) (fun k => K a j * (X j k * zn 0 p k))) by (intros; ring). rewrite rsum_scal. ring. }
      rewrite rsum_plus, rsum_minus. fold dim. rewrite KS by exact Ha. rewrite Vs' by exact Ha. rewrite Vr' by exact Ha. rewrite MC by exact Ha. rewrite rsum_swap.
      rewrite (rsum_ext 0 n (fun j => rsum 0 dim (fun i0 => K a i0 * X i0 j * zn 0 p j)) (fun j => M a j * zn 0 p j)); [ring|]. intros j Hj. rewrite rsum_scal_r. f_equal. apply HX; assumption. }
    intros i Hi. rewrite (rsum_ext 0 dim _ (fun j => M j i * zn 0 sol j - rsum 0 n (fun k => M j i * X j k * zn 0 p k))).
    2:{ intros j Hj. rewrite E by exact Hj. rewrite (rsum_ext 0 n (fun k => M j i * X j k * zn 0 p k) (fun k => M j i * (X j k * zn 0 p k))) by (intros; ring). rewrite rsum_scal. ring. }
    rewrite rsum_minus. rewrite rsum_swap. specialize (Sp i Hi). specialize (Vq1 i Hi). cbv iota in Vq1. rewrite RC in Vq1 by exact Hi. rewrite Vq1 in Sp.
    rewrite (rsum_ext 0 n _ (fun j => rsum 0 dim (fun p0 => M p0 i * X p0 j) * zn 0 p j - Nm i j * zn 0 p j)) in Sp by (intros j Hj; rewrite HS by assumption; ring). rewrite rsum_minus in Sp.
    rewrite (rsum_ext 0 n (fun j => rsum 0 dim (fun i0 => M i0 i * X i0 j * zn 0 p j)) (fun j => rsum 0 dim (fun p0 => M p0 i * X p0 j) * zn 0 p j)) by (intros j Hj; apply rsum_scal_r). lra.
Qed.

(** *** the hypotheses can be met *)
(** the identity of dimension 1 as factorised matrix *)
Definition fac1 : factor N := mkFactor (N := N) 1 (fun rhs => Some rhs).
Lemma kkt1 : kkt (fun i j => if (i =? j)%Z then 1 else 0) fac1.
Proof.
  assert (S1 : forall g, rsum 0 1 g = g 0%Z) by (intros; change 1%Z with (0 + 1)%Z; rewrite rsum_last by lia; rewrite rsum_empty by lia; ring).
  constructor; cbn [fac1 f_dim f_solve].
  - lia.
  - intros i j _ _. rewrite Z.eqb_sym. reflexivity.
  - intros v Hv i Hi. specialize (Hv 0%Z ltac:(lia)). rewrite S1 in Hv. cbn [Z.eqb] in Hv. replace i with 0%Z by lia. lra.
  - intros rhs sol L E. injection E as <-. split; [exact L|]. intros i Hi. replace i with 0%Z by lia. rewrite S1. cbn [Z.eqb]. lra.
Qed.
Definition op1 : sop N := SAdd (N := N) false 5%Z SUT_VarFreed [0%Z] [1] [] [] (-1).
Example history_ex : exists w M Nm, history fac1 w (fun i j => if (i =? j)%Z then 1 else 0) M Nm /\ sc_n w = 1%Z /\ ent w (sc_S w) 0 0 = 2 /\ step_data w [5%Z; 7%Z] 2 [] 0 [1; 2] [] [0; 0] [].
Proof.
  pose proof (h_new fac1 _ (fun _ _ => 0) (fun _ _ => 0) 3 2 kkt1 ltac:(lia) ltac:(lia)) as H0. set (w0 := schur_new (N := N) 3 2) in *.
  assert (V : valid op1 (fac1, w0)).
  { split; [cbn; lia|]. constructor; try reflexivity; cbn [fac1 f_dim]; change (zlen [0%Z]) with 1%Z; change (zlen (@nil Z)) with 0%Z; intros; try lia. replace t with 0%Z by lia. change (0 <= 0 < 1)%Z. lia. }
  pose proof (add_step fac1 w0 _ _ _ false _ _ _ _ _ _ _ (history_tracks _ _ _ _ _ H0) V) as G. fold op1 in G. destruct (run_sop op1 (fac1, w0)) as [[f' w']| |] eqn:E; cbn [wp fst snd] in G; try contradiction.
  destruct G as (-> & Em & [(_ & _ & [(_ & rhs & _ & G)|(G & _)])|(En & T & HI & _)]); [discriminate..|]. exists w'. eexists. eexists. split; [exact (h_add _ _ _ _ _ _ _ _ _ _ _ _ _ _ H0 V E En)|]. split; [exact En|]. change (sc_n w0) with 0%Z in HI. destruct (HI 0%Z ltac:(lia)) as (I1 & I2). cbn [Z.eqb] in I1, I2. change (sc_n w0 + 1)%Z with 1%Z in En. split.
  2:{ constructor; try (cbv; split; discriminate); try (cbv; discriminate); rewrite ?En; try (intros; lia); try (intros i j Hi Hj; lia).
    - intros i j Hi Hj. assert (i = 0 \/ i = 1)%Z as [-> | ->] by lia; assert (j = 0 \/ j = 1)%Z as [-> | ->] by lia; cbv; congruence.
    - intros j Hj. replace j with 0%Z by lia. rewrite I2. cbv. split; discriminate. }
  destruct T as [_ _ _ _ [RC RN (X & HX & HS)]]. specialize (HS 0%Z 0%Z ltac:(rewrite En; cbn; lia) ltac:(rewrite En; cbn; lia)). specialize (HX 0%Z 0%Z ltac:(cbn; lia) ltac:(rewrite En; cbn; lia)). cbn [fac1 f_dim] in HX, HS.
  assert (S1 : forall g, rsum 0 1 g = g 0%Z) by (intros; change 1%Z with (0 + 1)%Z; rewrite rsum_last by lia; rewrite rsum_empty by lia; ring).
  rewrite S1 in HX, HS. cbn [Z.eqb] in HX. change (ent w' (sc_S w') 0 0) with (Sf w' 0 0). rewrite HS. replace (X 0%Z 0%Z) with (1 * X 0%Z 0%Z) by ring. rewrite HX. unfold Madd, Nadd. change (sc_n w0) with 0%Z. cbn [Z.eqb]. unfold spv. change (zlen [0%Z]) with 1%Z. rewrite S1. change (zn 0%Z [0%Z] 0) with 0%Z. rewrite kd_same. change (zn 0 [1] 0) with 1. lra.
Qed.
End P.

(** *** what fails without the guards, on rational numbers *)
From Coq Require Import QArith.
Local Open Scope Z_scope.
Definition qfac (n : Z) : factor QNum := mkFactor (N := QNum) n (fun rhs => Some rhs).
(** entries below ZERO = 1e-25 (Constants.hpp) are not rotated away: with
    S = (1 y; y 1), y = 1e-26, R is not upper triangular and a solve that reports
    success does not solve *)
Definition qy : Q := (1 # 10 ^ 26)%Q.
Definition small_run : res (factor QNum * schur QNum) :=
  s <- run_sop (SAdd (N := QNum) false 0 SUT_VarFixed [0] [1%Q : QNum] [] [] (0%Q : QNum)) (qfac 2, schur_new (N := QNum) 2 2) ;;
  run_sop (SAdd (N := QNum) false 1 SUT_VarFixed [1] [1%Q : QNum] [0] [(- qy)%Q : QNum] (0%Q : QNum)) s.
Theorem C55_small_entry_refuted : exists f w x, small_run = Ok (f, w) /\ sc_S w = [1%Q; qy; qy; 1%Q] /\ zn (0%Q : QNum) (sc_R w) (1 + 0 * sc_max w) = qy /\
  backsolveSchurQR w 2 [1%Q : QNum; 0%Q : QNum] 1 [0%Q : QNum; 0%Q : QNum] = Ok (SUCCESSFUL_RETURN, x) /\ ~ (qy * zn 0 x 0 + 1 * zn 0 x 1 == 0)%Q.
Proof.
  assert (H : match small_run with Ok (f, w) => sc_S w = [1%Q; qy; qy; 1%Q] /\ zn (0%Q : QNum) (sc_R w) (1 + 0 * sc_max w) = qy /\
     match backsolveSchurQR w 2 [1%Q : QNum; 0%Q : QNum] 1 [0%Q : QNum; 0%Q : QNum] with Ok (SUCCESSFUL_RETURN, x) => x = [1%Q; 0%Q] | _ => False end | _ => False end) by (vm_compute; repeat split).
  destruct small_run as [[f w]| |]; try contradiction. destruct H as (H1 & H2 & H3). destruct (backsolveSchurQR w 2 _ _ _) as [[r x]| |] eqn:E; try contradiction. destruct r; try contradiction.
  exists f, w, x. split; [reflexivity|]. split; [exact H1|]. split; [exact H2|]. split; [exact E|]. rewrite H3. vm_compute. discriminate.
Qed.
(** a singular S makes the curvature test of an added row wrong: S = 0 is bordered
    to (0 1; 1 2) with determinant -1, so the determinants 0 and -1 do not have
    the same sign, but the update is taken back (calcDetSchur ignores that the
    solve failed, line 2209) *)
Definition probe_run : res (factor QNum * schur QNum) :=
  s <- run_sop (SAdd (N := QNum) false 0 SUT_VarFreed [0] [1%Q : QNum] [] [] (1%Q : QNum)) (qfac 2, schur_new (N := QNum) 2 2) ;;
  run_sop (SAdd (N := QNum) true 1 SUT_VarFreed [1] [1%Q : QNum] [0] [(- 1)%Q : QNum] ((- 1)%Q : QNum)) s.
Theorem C55_singular_probe_refuted : exists f w, probe_run = Ok (f, w) /\ sc_S w = [0%Q; 1%Q; 1%Q; 2%Q] /\ sc_n w = 1.
Proof.
  assert (H : match probe_run with Ok (f, w) => sc_S w = [0%Q; 1%Q; 1%Q; 2%Q] /\ sc_n w = 1 | _ => False end) by (vm_compute; split; reflexivity).
  destruct probe_run as [[f w]| |]; try contradiction. exists f, w. split; [reflexivity|exact H].
Qed.
(** the result of backsolveSchurQR is not looked at (line 2628): with K = M = N = 1
    the matrix (K M; M' N) is singular, and success is reported for a pair (sol,
    p) that violates the second row *)
Definition singular_run : res (returnValue * (list QNum * list QNum * list QNum * list QNum)) :=
  '(f, w) <- run_sop (SAdd (N := QNum) false 0 SUT_VarFreed [0] [1%Q : QNum] [] [] (1%Q : QNum)) (qfac 1, schur_new (N := QNum) 1 1) ;;
  stepCalcBacksolveSchur f w [0] 1 [] 0 [0%Q : QNum] [] [7%Q : QNum] [8%Q : QNum] [1%Q : QNum] [1%Q : QNum] [3%Q : QNum] [].
Theorem C66_singular_refuted : exists rhs sol p y, singular_run = Ok (SUCCESSFUL_RETURN, (rhs, sol, p, y)) /\
  (1 * zn 0 sol 0 + 1 * zn 0 p 0 == 1)%Q /\ ~ (1 * zn 0 sol 0 + 1 * zn 0 p 0 == 0)%Q.
Proof.
  assert (H : match singular_run with Ok (SUCCESSFUL_RETURN, (rhs, sol, p, y)) => sol = [0%Q] /\ p = [1%Q] | _ => False end) by (vm_compute; split; reflexivity).
  destruct singular_run as [[r [[[rhs sol] p] y]]| |]; try contradiction. destruct r; try contradiction. destruct H as [-> ->]. exists rhs, [0%Q], [1%Q], y. split; [reflexivity|]. split; [reflexivity|]. vm_compute. discriminate.
Qed.
