(** Memory safety of the matrix operations used by the solver, for every
    arithmetic. *)
From Verif Require Import Base Types Num Indexlist IndexlistProofs Utils Matrices CsLib LinAlg SafeLib.

Section MatSafe.
Context {N : Num}.
Notation arr := (list N).

(** n x n matrices whose arrays are as large as their indices require *)
Definition dsafe (n : Z) (A : denseM N) : Prop :=
  d_nr A = n /\ d_nc A = n /\ n <= d_ld A /\ (n - 1) * d_ld A + n <= zlen (d_val A).
Definition ssafe (n : Z) (A : sparseM N) : Prop :=
  s_nr A = n /\ s_nc A = n /\ wf_cs n n (s_jc A) (s_ir A) (s_val A) /\
  match s_jd A with
  | None => True
  | Some jd => zlen jd = n /\ forall i, 0 <= i < n -> 0 <= zn 0 jd i < zlen (s_ir A) /\ zn 0 jd i < zlen (s_val A)
  end.

(** index lists with entries below n *)
Definition idx_ok (n : Z) (s : indexlist) : Prop := exists l, il_rep s l /\ forall v, In v l -> 0 <= v < n.

Lemma mul_bound n ld L r c : 0 <= r < n -> 0 <= c < n -> n <= ld -> (n - 1) * ld + n <= L -> 0 <= r * ld + c < L.
Proof. intros. nia. Qed.

Lemma rows_safe xN n f (y : arr) (Q : arr -> Prop) :
  (forall k j s, 0 <= k < xN -> 0 <= j < n -> zlen s = zlen y -> wp (f k j s) (fun s' => zlen s' = zlen y)) ->
  (forall y', zlen y' = zlen y -> Q y') -> wp (rows xN n f y) Q.
Proof.
  intros H HQ. unfold rows. apply wp_for_len; auto. intros k s Hk Hs. apply wp_for_len; [|congruence].
  intros j s' Hj Hs'. rewrite Hs in *. apply H; auto.
Qed.

Lemma beta_safe n tgt src beta (y : arr) yLD (Q : arr -> Prop) :
  (forall j, 0 <= j < n -> exists t, tgt j = Ok t /\ 0 <= t < zlen y) -> (forall j, 0 <= j < n -> exists t, src j = Ok t /\ 0 <= t < zlen y) ->
  (forall y', zlen y' = zlen y -> Q y') -> wp (beta_pass 1 n tgt src beta y yLD) Q.
Proof.
  intros Ht Hs HQ. unfold beta_pass.
  destruct (isZero beta); [|destruct (isEqual beta nm1); [|destruct (negb (isEqual beta n1))]]; [| | |now apply HQ].
  all: apply rows_safe; auto; intros k j s Hk Hj Ls; destruct (Ht j Hj) as (t & -> & Bt); cbn [bind];
    assert (k = 0) by lia; subst k.
  - apply wp_wrv; [lia|congruence].
  - destruct (Hs j Hj) as (t' & -> & Bt'). cbn [bind]. sstep. sstep; [lia|]. sstep; lia.
  - sstep. sstep; [lia|]. sstep; lia.
Qed.
Lemma id_row_ok n (y : arr) j : n <= zlen y -> 0 <= j < n -> exists t, id_row j = Ok t /\ 0 <= t < zlen y.
Proof. intros. exists j. split; [reflexivity|lia]. Qed.

Lemma accum_safe alpha (y : arr) p v x (Q : arr -> Prop) : 0 <= p < zlen y -> (forall y', zlen y' = zlen y -> Q y') -> wp (accum alpha y p v x) Q.
Proof. intros Hp HQ. unfold accum. sstep. sstep; [lia|]. sstep; auto. Qed.

Lemma getNorm_safe (v : arr) off n t : 0 <= off -> off + n <= zlen v -> wp (getNorm v off n t) (fun _ => True).
Proof.
  intros Ho Hn. unfold getNorm.
  assert (L : forall f : N -> N -> N, wp (for_up 0 n (fun i norm => a <- rd v (off + i) ;; Ok (f norm a)) n0) (fun _ => True)).
  { intros f. apply wp_for_inv with (I := fun _ => True); auto. intros. sstep. sstep; [lia|]. exact I. }
  destruct (t =? 2); [|destruct (t =? 1); [apply (L (fun norm a => norm +' nabs a))|exact I]].
  sstep. eapply wp_mono; [apply (L (fun norm a => norm +' a *' a))|]. intros; exact I.
Qed.

(** ** dense *)
Section Dense.
Variables (n : Z) (A : denseM N).
Hypothesis W : dsafe n A.
Hypothesis n0' : 0 <= n.

Lemma d_in r c : 0 <= r < n -> 0 <= c < n -> 0 <= r * d_ld A + c < zlen (d_val A).
Proof. intros. destruct W as (_ & _ & L & B). now apply (mul_bound n). Qed.
Lemma d_diag_safe i : 0 <= i < n -> wp (d_diag A i) (fun _ => True).
Proof. intros. unfold d_diag. apply wp_rdv; auto. pose proof (d_in i i). replace (i * (d_ld A + 1)) with (i * d_ld A + i) by ring. auto. Qed.
Lemma d_isDiag_safe : wp (d_isDiag A) (fun _ => True).
Proof.
  unfold d_isDiag. destruct W as (R & C & _). rewrite R, C. destruct (negb _); [exact I|]. sstep.
  apply wp_forb_inv with (I := fun _ => True) (J := fun _ => True); try (intros; exact I). intros i _ Hi _.
  apply wp_forb_inv with (I := fun _ => True) (J := fun _ => True); auto. intros j _ Hj _.
  sstep. sstep; [apply d_in; lia|]. sstep; [exact I|]. sstep. sstep; [apply d_in; lia|]. sstep; exact I.
Qed.
Lemma d_getNorm_safe t : wp (d_getNorm A t) (fun _ => True).
Proof. unfold d_getNorm. destruct W as (R & C & L & B). rewrite R, C. apply getNorm_safe; [lia|]. pose proof (zlen_nonneg (d_val A)). destruct (Z.eq_dec n 0); [nia|]. pose proof (Z.mul_nonneg_nonneg (n - 1) (d_ld A - n)). nia. Qed.
Lemma d_getRow_safe r ic alpha (row : arr) l : il_rep ic l -> (forall v, In v l -> 0 <= v < n) -> 0 <= r < n -> zlen l <= zlen row ->
  wp (d_getRow A r (Some ic) alpha row) (fun r' => zlen r' = zlen row).
Proof.
  intros Rp Rl Hr Hl. unfold d_getRow. rewrite (rep_len _ _ Rp). apply wp_for_len; auto. intros i s Hi Hs.
  sstep. apply (wp_rdi ic l); auto. intros Hin. sstep. sstep; [apply d_in; auto|]. apply wp_wrv; [lia|]. congruence.
Qed.
Lemma d_getCol_safe c ir alpha (col : arr) l : il_rep ir l -> (forall v, In v l -> 0 <= v < n) -> 0 <= c < n -> zlen l <= zlen col ->
  wp (d_getCol A c ir alpha col) (fun r' => zlen r' = zlen col).
Proof.
  intros Rp Rl Hr Hl. unfold d_getCol. rewrite (rep_len _ _ Rp). apply wp_for_len; auto. intros i s Hi Hs.
  sstep. apply (wp_rdi ir l); auto. intros Hin. sstep. sstep; [apply d_in; auto|]. apply wp_wrv; [lia|]. congruence.
Qed.
Lemma d_times_safe alpha (x : arr) beta (y : arr) : n <= zlen x -> n <= zlen y ->
  wp (d_times A 1 alpha x n beta y n) (fun y' => zlen y' = zlen y).
Proof.
  intros Hx Hy. unfold d_times, dgemm. destruct W as (R & C & L & B). rewrite R, C. sstep.
  apply beta_safe; [intros; apply (id_row_ok n); auto|intros; apply (id_row_ok n); auto|]. intros y1 L1.
  apply rows_safe; [|congruence]. intros k j s Hk Hj Ls. assert (k = 0) by lia; subst k.
  apply wp_for_len; [|congruence]. intros i s' Hi Ls'. sstep. sstep.
  { rewrite Z.max_r by lia. rewrite Z.add_comm, Z.mul_comm. assert (0 <= j * n + i < n * n) by nia. nia. }
  sstep. sstep; [lia|]. apply accum_safe; lia.
Qed.
Lemma d_times_idx_safe ir ic alpha (x : arr) xLD beta (y : arr) yLD lr lc : il_rep ir lr -> il_rep ic lc ->
  (forall v, In v lr -> 0 <= v < n) -> (forall v, In v lc -> 0 <= v < n) -> zlen lc <= zlen x -> zlen lr <= zlen y ->
  wp (d_times_idx A ir (Some ic) 1 alpha x xLD beta y yLD true) (fun y' => zlen y' = zlen y).
Proof.
  intros Rr Rc Hr Hc Hx Hy. unfold d_times_idx. rewrite (rep_len _ _ Rr), (rep_len _ _ Rc). sstep.
  apply beta_safe; [intros; apply (id_row_ok (zlen lr)); auto|intros; apply (id_row_ok (zlen lr)); auto|]. intros y1 L1.
  apply rows_safe; [|congruence]. intros k j s Hk Hj Ls. assert (k = 0) by lia; subst k.
  sstep. apply (wp_rds ir lr); auto. intros Hs. sstep. apply (wp_rdi ir lr); auto. intros Hi.
  apply wp_for_len; [|congruence]. intros i s' Hi' Ls'. sstep. apply (wp_rds ic lc); auto. intros Hsc. sstep. apply (wp_rdi ic lc); auto. intros Hic.
  sstep. sstep; [apply d_in; auto|]. sstep. sstep; [lia|]. apply accum_safe; lia.
Qed.
Lemma d_addToDiag_safe alpha : wp (d_addToDiag A alpha) (fun '(_, A') => dsafe n A').
Proof.
  unfold d_addToDiag. destruct W as (R & C & L & B). rewrite R, C, Z.min_id. sstep. apply wp_for_len.
  - intros i s Hi Ls. pose proof (d_in i i Hi Hi). replace (i * (d_ld A + 1)) with (i * d_ld A + i) by ring.
    sstep. sstep; [lia|]. sstep; lia.
  - intros v Hv. cbn [wp]. unfold dsafe. cbn [d_nr d_nc d_ld d_val]. rewrite Hv. auto.
Qed.
End Dense.

(** ** sparse *)
Section Sparse.
Variables (n : Z) (A : sparseM N).
Hypothesis W : ssafe n A.
Lemma cs : wf_cs n n (s_jc A) (s_ir A) (s_val A). Proof. exact (proj1 (proj2 (proj2 W))). Qed.

Lemma s_nn : 0 <= n. Proof. exact (cs_n _ _ _ _ _ cs). Qed.
Lemma entry_at_safe j r : 0 <= j < n -> wp (entry_at (s_jc A) (s_ir A) (s_val A) j r) (fun _ => True).
Proof.
  intros Hj. unfold entry_at. rewrite !(rd_ptr _ _ _ _ _ cs) by lia. cbn [bind].
  destruct (scan_ok _ _ _ _ _ cs j r Hj) as (i & E & Hi & _). rewrite E. cbn [bind].
  destruct (Z.ltb_spec i (zn 0 (s_jc A) (j + 1))); [|exact I].
  rewrite (rd_idx _ _ _ _ _ cs j) by lia. cbn [bind]. destruct (_ =? r); [|exact I].
  sstep. apply wp_rdv; [|intros; exact I]. apply (pos_in _ _ _ _ _ cs j); lia.
Qed.
Lemma s_diag_safe i : 0 <= i < n -> wp (s_diag A i) (fun _ => True).
Proof.
  intros Hi. unfold s_diag. destruct W as (R & C & _ & D). destruct (s_jd A) as [jd|]; [|exact I].
  destruct D as (Lj & D). destruct (D i Hi) as (D1 & D2). rewrite (rd_ok 0) by lia. cbn [bind].
  rewrite (rd_ptr _ _ _ _ _ cs) by lia. cbn [bind]. destruct (_ <? _); [|exact I].
  sstep. sstep; [lia|]. destruct (_ =? i); [|exact I]. apply wp_rdv; [lia|auto].
Qed.
Lemma s_isDiag_safe : wp (s_isDiag A) (fun _ => True).
Proof.
  unfold s_isDiag. destruct W as (R & C & _). rewrite R, C. destruct (negb _); [exact I|]. sstep.
  apply wp_forb_inv with (I := fun _ => True) (J := fun _ => True); try (intros; exact I). intros j _ Hj _.
  rewrite !(rd_ptr _ _ _ _ _ cs) by lia. cbn [bind]. destruct (_ <? _); [exact I|].
  destruct (Z.eqb_spec (zn 0 (s_jc A) (j + 1)) (zn 0 (s_jc A) j + 1)); [|exact I].
  sstep. apply wp_rdv; [apply (pos_in _ _ _ _ _ cs j); lia|]. intros v. sstep; exact I.
Qed.
Lemma s_getNorm_safe t : wp (s_getNorm A t) (fun _ => True).
Proof.
  unfold s_getNorm. destruct W as (R & C & _). rewrite C. pose proof s_nn. rewrite (rd_ptr _ _ _ _ _ cs) by lia. cbn [bind].
  apply getNorm_safe; [lia|]. rewrite Z.add_0_l. apply (cs_val _ _ _ _ _ cs).
Qed.
Lemma s_getRow_safe r ic alpha (row : arr) l : il_rep ic l -> (forall v, In v l -> 0 <= v < n) -> zlen l <= zlen row ->
  wp (s_getRow A r (Some ic) alpha row) (fun r' => zlen r' = zlen row).
Proof.
  intros Rp Rl Hl. unfold s_getRow. rewrite (rep_len _ _ Rp). apply wp_for_len; auto. intros i s Hi Hs.
  sstep. apply (wp_rds ic l); auto. intros Hso. sstep. apply (wp_rdi ic l); auto. intros Hin.
  sstep. eapply wp_mono; [apply entry_at_safe; auto|]. intros e _. apply wp_wrv; [lia|congruence].
Qed.
Lemma s_getCol_safe c ir alpha (col : arr) l : il_rep ir l -> 0 <= c < n -> zlen l <= zlen col ->
  wp (s_getCol A c ir alpha col) (fun r' => zlen r' = zlen col).
Proof.
  intros Rp Hc Hl. unfold s_getCol, merge_get. rewrite !(rd_ptr _ _ _ _ _ cs) by lia. cbn [bind]. sstep.
  pose proof (cs_mono _ _ _ _ _ cs c Hc).
  eapply wp_mono; [apply (merge_ok _ _ _ _ _ cs (fun _ k s => zlen s = zlen col) c _ ir l _ _ col (fun _ k s => 0 <= k <= zlen l /\ zlen s = zlen col)); auto; try lia|].
  - intros i k s Hi Hk _ Ls _. sstep. apply wp_rdv; [apply (pos_in _ _ _ _ _ cs c); lia|]. intros v.
    pose proof (rep_rng _ _ Rp k Hk). apply wp_wrv; [lia|congruence].
  - intros i k s Hi Hk _ Ls _. pose proof (rep_rng _ _ Rp k Hk). apply wp_wrv; [lia|congruence].
  - intros [[i k] s] (Hk & Ls). rewrite (rep_len _ _ Rp). apply wp_for_len; [|congruence]. intros j s' Hj Ls'.
    sstep. apply (wp_rds ir l); auto; [lia|]. intros Hso. apply wp_wrv; [lia|congruence].
Qed.
Lemma each_safe (I : arr -> Prop) j (f : Z -> arr -> res arr) (s : arr) : 0 <= j < n -> I s ->
  (forall p s, zn 0 (s_jc A) j <= p < zn 0 (s_jc A) (j + 1) -> I s -> wp (f p s) I) -> wp (each_entry (s_jc A) j f s) I.
Proof. intros Hj H0 H. rewrite (each_entry_eq _ _ _ _ _ cs) by assumption. apply wp_for_inv with (I := I); auto. Qed.
Lemma s_times_safe alpha (x : arr) beta (y : arr) : n <= zlen x -> n <= zlen y ->
  wp (s_times A 1 alpha x n beta y n) (fun y' => zlen y' = zlen y).
Proof.
  intros Hx Hy. unfold s_times. destruct W as (R & C & _). rewrite R, C. sstep.
  apply beta_safe; [intros; apply (id_row_ok n); auto|intros; apply (id_row_ok n); auto|]. intros y1 L1.
  apply rows_safe; [|congruence]. intros k j s Hk Hj Ls. assert (k = 0) by lia; subst k.
  apply each_safe; [lia|auto|]. intros p s' Hp Ls'. destruct (pos_in _ _ _ _ _ cs j p Hj Hp) as (_ & P1 & P2 & P3).
  rewrite (rd_ok 0) by lia. cbn [bind]. sstep. sstep; [lia|]. sstep. sstep; [lia|]. apply accum_safe; lia.
Qed.
Lemma s_times_idx_safe ir ic alpha (x : arr) xLD beta (y : arr) yLD lr lc : il_rep ir lr -> il_rep ic lc ->
  (forall v, In v lr -> 0 <= v < n) -> (forall v, In v lc -> 0 <= v < n) -> zlen lc <= zlen x -> zlen lr <= zlen y ->
  wp (s_times_idx A ir (Some ic) 1 alpha x xLD beta y yLD true) (fun y' => zlen y' = zlen y).
Proof.
  intros Rr Rc Hr Hc Hx Hy. unfold s_times_idx. rewrite (rep_len _ _ Rr). destruct W as (R & C & _). rewrite R.
  destruct (isEqual alpha n0).
  { apply beta_safe; [intros; apply (id_row_ok (zlen lr)); auto|intros; apply (id_row_ok (zlen lr)); auto|]. auto. }
  assert (Hn := s_nn). sstep. eapply wp_mono with (P := fun yt => zlen yt = n).
  { unfold s_ytmp. rewrite (rep_len _ _ Rc), R. assert (L0 : zlen (repeat (@n0 N) (Z.to_nat (1 * n))) = n) by (rewrite zlen_repeat; lia).
    apply wp_for_inv with (I := fun s => zlen s = n); auto. intros l s Hl Ls.
    sstep. apply (wp_rds ic lc); auto. intros Hsc. sstep. apply (wp_rdi ic lc); auto. intros Hic.
    unfold s_ytmp_col. change (1 =? 1) with true. cbv iota. sstep. sstep; [lia|]. sstep; [exact Ls|].
    apply each_safe; auto. intros p s' Hp Ls'. destruct (pos_in _ _ _ _ _ cs _ p (Hc _ Hic) Hp) as (_ & P1 & P2 & P3).
    rewrite (rd_ok 0) by lia. cbn [bind]. sstep. sstep; [lia|]. sstep. sstep; [lia|]. sstep; lia. }
  intros yt Lyt. apply rows_safe; auto. intros k j s Hk Hj Ls. assert (k = 0) by lia; subst k.
  sstep. sstep. apply (wp_rdi ir lr); auto. intros Hi. specialize (Hr _ Hi). apply wp_rdv; [lia|]. intros w. cbn [id_row bind].
  repeat (sstep; lens).
Qed.
Lemma s_addToDiag_safe alpha : wp (s_addToDiag A alpha) (fun '(_, A') => ssafe n A').
Proof.
  unfold s_addToDiag, addDiag. destruct W as (R & C & CS & D). rewrite R, C, Z.min_id.
  assert (K : forall v, zlen v = zlen (s_val A) -> ssafe n (mkSparse n n (s_ir A) (s_jc A) (s_jd A) v)).
  { intros v Hv. unfold ssafe. cbn [s_nr s_nc s_jc s_ir s_jd s_val]. split; [|split; [|split]]; auto.
    - destruct CS. constructor; auto. now rewrite Hv.
    - destruct (s_jd A); auto. now rewrite Hv. }
  destruct (s_jd A) as [jd|]; [|cbn [bind wp]; apply K; auto].
  destruct (isZero alpha); [cbn [bind wp]; apply K; auto|]. destruct D as (Lj & D). sstep. sstep.
  apply wp_forb_inv with (I := fun v => zlen v = zlen (s_val A)) (J := fun e => zlen (snd e) = zlen (s_val A)); auto.
  - intros i v Hi Lv. destruct (D i Hi) as (D1 & D2). rewrite (rd_ok 0) by lia. cbn [bind]. sstep. sstep; [lia|]. sstep; [|exact Lv].
    sstep. sstep; [lia|]. sstep. sstep; [lia|]. cbn. congruence.
  - intros [r v] Lv. cbn [wp]. apply K; auto.
Qed.
End Sparse.

(** ** factorisation and triangular solves *)
Lemma cm_range nV p q L : 0 <= p < nV -> 0 <= q < nV -> nV * nV <= L -> 0 <= p + nV * q < L.
Proof. intros. nia. Qed.

Lemma dpotrf_safe n lda (a : arr) : 0 <= n <= lda -> lda * lda <= zlen a -> wp (dpotrf n a lda) (fun '(i, a') => 0 <= i /\ zlen a' = zlen a).
Proof.
  intros Hn Ha. assert (C : forall p q, 0 <= p < n -> 0 <= q < n -> 0 <= p + lda * q < zlen a) by (intros; apply cm_range; lia).
  unfold dpotrf. sstep. apply wp_forb_inv with (I := fun s => zlen s = zlen a) (J := fun e => 0 <= fst e /\ zlen (snd e) = zlen a); auto.
  2:{ intros s Hs. cbn. split; [lia|auto]. }
  2:{ intros [i s] H. exact H. }
  assert (C' : forall (s : arr) p q k, zlen s = zlen a -> 0 <= p < n -> 0 <= q < n -> k = p + lda * q -> 0 <= k < zlen s).
  { intros s p q k -> Hp Hq ->. now apply C. }
  intros i s Hi Ls. sstep. sstep; [apply (C' s i i); lia|]. sstep.
  apply wp_for_dn_inv with (I := fun _ => True); auto.
  { intros k u Hk _. sstep. sstep; [apply (C' s k i); lia|]. exact I. }
  intros u _. sstep.
  - sstep. sstep; [apply (C' s i i); lia|]. sstep. apply wp_for_len; [|intros; cbn; lia].
    intros j s' Hj Ls'. sstep. sstep; [apply (C' s' i j); lia|].
    sstep. apply wp_for_dn_inv with (I := fun _ => True); auto.
    { intros k w Hk _. sstep. sstep; [apply (C' s' k i); lia|]. sstep. sstep; [apply (C' s' k j); lia|]. exact I. }
    intros w _. sstep. sstep; [apply (C' s' i i); lia|]. apply wp_wrv; [apply (C' s' i j); lia|lia].
  - sstep. sstep; [pose proof (C 0 0); lia|]. cbn. split; lia.
Qed.

Definition rhs_safe (b : option arr) (a : arr) (n : Z) : Prop := match b with Some v => n <= zlen v | None => True end.
Lemma backsolveR_safe nV nR (R : arr) b t (a : arr) : nR <= nV -> nV * nV <= zlen R -> nR <= zlen a -> rhs_safe b a nR ->
  wp (backsolveR nV nR R b t a) (fun '(_, a') => zlen a' = zlen a).
Proof.
  intros Hn HR Ha Hb. unfold backsolveR. destruct (Z.leb_spec nR 0); [reflexivity|].
  assert (C : forall p q, 0 <= p < nR -> 0 <= q < nR -> 0 <= p + nV * q < zlen R) by (intros; apply cm_range; lia).
  assert (Rb : forall i s (Q : N -> Prop), 0 <= i < nR -> zlen s = zlen a -> (forall v, Q v) -> wp (rdb b s i) Q).
  { intros i s Q Hi Hs HQ. unfold rdb. destruct b as [v|]; cbn in Hb; apply wp_rdv; auto; lia. }
  sstep. destruct t.
  - apply wp_forb_inv with (I := fun s => zlen s = zlen a) (J := fun e => zlen (snd e) = zlen a); auto; [|now intros [] ].
    intros i s Hi Ls. sstep. apply Rb; auto. intros v. sstep. apply wp_for_inv with (I := fun _ => True); auto.
    { intros j w Hj _. sstep. sstep; [apply C; lia|]. sstep. sstep; [lia|]. exact I. }
    intros w _. sstep. sstep; [apply C; lia|]. sstep; [|exact Ls]. sstep. sstep; [lia|]. cbn; congruence.
  - apply wp_forb_dn_inv with (I := fun s => zlen s = zlen a) (J := fun e => zlen (snd e) = zlen a); auto; [|now intros [] ].
    intros i s Hi Ls. sstep. apply Rb; auto; [lia|]. intros v. sstep. apply wp_for_inv with (I := fun _ => True); auto.
    { intros j w Hj _. sstep. sstep; [apply C; lia|]. sstep. sstep; [lia|]. exact I. }
    intros w _. sstep. sstep; [apply C; lia|]. sstep; [|exact Ls]. sstep. sstep; [lia|]. cbn; congruence.
Qed.
End MatSafe.
