(** Adding a row and a column to the Schur complement. *)
From Verif Require Import Base Types Num RSum LinSpec LinAlg PropLinAlg QPX7 Schur Det SchurF SchurA SchurB SchurS SchurU SchurC SchurD.
Local Open Scope R_scope.

Section E.
Variables eps zero infty : R.
Notation N := (RNumT eps zero infty).
Notation arr := (list R).
Notation schur := (Schur.schur N).

(** column j of the sparse matrix M applied to a vector *)
Definition colsum (w : schur) (j : Z) (x : Z -> R) : R :=
  rsum (zn 0%Z (sc_jc w) j) (zn 0%Z (sc_jc w) (j + 1)) (fun k => (zn 0 (sc_mv w) k : R) * x (zn 0%Z (sc_ir w) k)).
Definition ir_in (dim : Z) (w : schur) : Prop := forall k, (0 <= k < zn 0 (sc_jc w) (sc_n w))%Z -> (0 <= zn 0%Z (sc_ir w) k < dim)%Z.

Lemma jc_range (w : schur) : sizes w -> mcols w -> forall j, (0 <= j < sc_n w)%Z ->
  (0 <= zn 0 (sc_jc w) j)%Z /\ (zn 0 (sc_jc w) j <= zn 0 (sc_jc w) (j + 1))%Z /\ (zn 0 (sc_jc w) (j + 1) <= zn 0 (sc_jc w) (sc_n w))%Z /\ (zn 0 (sc_jc w) (sc_n w) <= zlen (sc_ir w))%Z.
Proof.
  intros Z C j Hj. pose proof (mono_le w C) as MM. destruct C as [C0 C1 C2 C3]. pose proof (MM 0%Z j ltac:(lia) ltac:(lia)). pose proof (MM j (j + 1)%Z ltac:(lia) ltac:(lia)). pose proof (MM (j + 1)%Z (sc_n w) ltac:(lia) ltac:(lia)). lia.
Qed.

Lemma mtt_ok dim (w : schur) (x y : arr) neg : sizes w -> mcols w -> ir_in dim w -> zlen x = dim -> zlen y = sc_n w ->
  wp (computeMTransTimes (N := N) w x neg y) (fun y' => zlen y' = sc_n w /\ forall j, (0 <= j < sc_n w)%Z -> zn 0 y' j = colsum w j (zn 0 x) - (if neg then zn 0 y j else 0)).
Proof.
  intros Z C IR Lx Ly. unfold computeMTransTimes. pose proof (jc_range w Z C) as JR. destruct Z as [Zn ZS ZQ ZR Zjc Zidx Ztyp]. pose proof (c_mv w C) as CM.
  apply wp_for_up with (I := fun k (t : arr) => zlen t = sc_n w /\ (forall j, (0 <= j < k)%Z -> zn 0 t j = colsum w j (zn 0 x) - (if neg then zn 0 y j else 0)) /\ forall j, (k <= j < sc_n w)%Z -> zn 0 t j = zn 0 y j); [lia| | |].
  - split; [exact Ly|]. split; [intros; lia|reflexivity].
  - intros k t Hk (Lt & V1 & V2). rcar. specialize (JR k Hk). apply wp_bind.
    eapply wp_mono with (P := fun t1 : arr => t1 = zupd t k (0 - (if neg then zn 0 y k else 0))).
    { destruct neg.
      - rewrite (rd_ok 0) by lia. cbn [bind]. rewrite wr_ok by lia. apply wp_ok. rnum. rewrite V2 by lia. f_equal. ring.
      - rewrite wr_ok by lia. apply wp_ok. rnum. f_equal. ring. }
    intros t1 ->. rewrite (rd_ok 0%Z) by lia. cbn [bind]. rewrite (rd_ok 0%Z) by lia. cbn [bind].
    apply wp_for_up with (I := fun l (t2 : arr) => t2 = zupd t k (rsum (zn 0%Z (sc_jc w) k) l (fun i => zn 0 (sc_mv w) i * zn 0 x (zn 0%Z (sc_ir w) i)) - (if neg then zn 0 y k else 0))); [lia| | |].
    + rewrite rsum_empty by lia. reflexivity.
    + intros l t2 Hl ->. pose proof (IR l ltac:(lia)) as IRl. rewrite (rd_ok 0) by (rewrite zlen_zupd; lia). cbn [bind]. rewrite (rd_ok 0) by (revert CM; rcar; lia). cbn [bind]. rewrite (rd_ok 0%Z) by lia. cbn [bind]. rewrite (rd_ok 0) by lia. cbn [bind]. rewrite wr_ok by (rewrite zlen_zupd; lia).
      apply wp_ok. rnum. rewrite zn_zupd by lia. rewrite Z.eqb_refl. rewrite rsum_last by lia. apply (list_ext_zn 0); [now rewrite !zlen_zupd|]. intros i Hi. rewrite !zlen_zupd in Hi. rewrite !zn_zupd by (rewrite ?zlen_zupd; lia). destruct (i =? k)%Z; [ring|reflexivity].
    + intros t2 ->. rewrite zlen_zupd. split; [exact Lt|]. split; intros j Hj; rewrite zn_zupd by lia; destruct (Z.eqb_spec j k) as [->|]; try lia; [reflexivity|apply V1; lia|apply V2; lia].
  - intros t (Lt & V1 & _). split; [exact Lt|exact V1].
Qed.

Lemma mt_ok dim (w : schur) (x y : arr) : sizes w -> mcols w -> ir_in dim w -> zlen x = sc_n w -> zlen y = dim ->
  wp (computeMTimes (N := N) w x y) (fun y' => zlen y' = dim /\ forall p, (0 <= p < dim)%Z -> zn 0 y' p = zn 0 y p - rsum 0 (sc_n w) (fun j => colsum w j (fun q => kd q p) * zn 0 x j)).
Proof.
  intros Z C IR Lx Ly. unfold computeMTimes. pose proof (jc_range w Z C) as JR. destruct Z as [Zn ZS ZQ ZR Zjc Zidx Ztyp]. pose proof (c_mv w C) as CM.
  apply wp_for_up with (I := fun k (t : arr) => zlen t = dim /\ forall p, (0 <= p < dim)%Z -> zn 0 t p = zn 0 y p - rsum 0 k (fun j => colsum w j (fun q => kd q p) * zn 0 x j)); [lia| | |].
  - split; [exact Ly|]. intros p Hp. rewrite rsum_empty by lia. ring.
  - intros k t Hk (Lt & V). rcar. specialize (JR k Hk). rewrite (rd_ok 0) by lia. cbn [bind]. rewrite (rd_ok 0%Z) by lia. cbn [bind]. rewrite (rd_ok 0%Z) by lia. cbn [bind].
    apply wp_for_up with (I := fun l (t2 : arr) => zlen t2 = dim /\ forall p, (0 <= p < dim)%Z -> zn 0 t2 p = zn 0 t p - rsum (zn 0%Z (sc_jc w) k) l (fun i => zn 0 (sc_mv w) i * kd (zn 0%Z (sc_ir w) i) p) * zn 0 x k); [lia| | |].
    + split; [exact Lt|]. intros p Hp. rewrite rsum_empty by lia. ring.
    + intros l t2 Hl (L2 & V2). pose proof (IR l ltac:(lia)) as IRl. rewrite (rd_ok 0%Z) by lia. cbn [bind]. rewrite (rd_ok 0) by (revert CM; rcar; lia). cbn [bind]. rewrite (rd_ok 0) by lia. cbn [bind]. rewrite wr_ok by lia.
      apply wp_ok. rnum. rewrite zlen_zupd. split; [exact L2|]. intros p Hp. rewrite zn_zupd by lia. rewrite rsum_last by lia. unfold kd at 2. destruct (Z.eqb_spec p (zn 0%Z (sc_ir w) l)) as [->|Np].
      * rewrite V2 by lia. rewrite Z.eqb_refl. ring.
      * rewrite V2 by lia. destruct (Z.eqb_spec (zn 0%Z (sc_ir w) l) p); [lia|]. ring.
    + intros t2 (L2 & V2). split; [exact L2|]. intros p Hp. rewrite V2, V by lia. rewrite rsum_last by lia. unfold colsum. ring.
  - intros t H. exact H.
Qed.

(** *** the data of an update: sparse column of M and of N *)
Definition spv (pos : list Z) (vals : arr) (p : Z) : R := rsum 0 (zlen pos) (fun t => kd (zn 0%Z pos t) p * zn 0 vals t).
Record upd_data (dim n : Z) (Mpos : list Z) (Mvals : arr) (Npos : list Z) (Nvals : arr) : Prop := {
  u_M : zlen Mvals = zlen Mpos; u_N : zlen Nvals = zlen Npos;
  u_Mr : forall t, (0 <= t < zlen Mpos)%Z -> (0 <= zn 0%Z Mpos t < dim)%Z;
  u_Md : forall s t, (0 <= s < zlen Mpos)%Z -> (0 <= t < zlen Mpos)%Z -> zn 0%Z Mpos s = zn 0%Z Mpos t -> s = t;
  u_Nr : forall t, (0 <= t < zlen Npos)%Z -> (0 <= zn 0%Z Npos t < n)%Z }.

Lemma scatter_ok dim (pos : list Z) (vals : arr) : (0 <= dim)%Z -> zlen vals = zlen pos ->
  (forall t, (0 <= t < zlen pos)%Z -> (0 <= zn 0%Z pos t < dim)%Z) ->
  (forall s t, (0 <= s < zlen pos)%Z -> (0 <= t < zlen pos)%Z -> zn 0%Z pos s = zn 0%Z pos t -> s = t) ->
  wp (for_up 0 (zlen pos) (fun i rhs => p <- rd pos i ;; v <- rd vals i ;; wr rhs p v) (repeat 0 (Z.to_nat dim)))
   (fun rhs => zlen rhs = dim /\ forall p, (0 <= p < dim)%Z -> zn 0 rhs p = spv pos vals p).
Proof.
  intros Hd Lv Hr Hds. unfold spv. pose proof (zlen_nonneg pos).
  apply wp_for_up with (I := fun k (rhs : arr) => zlen rhs = dim /\ forall p, (0 <= p < dim)%Z -> zn 0 rhs p = rsum 0 k (fun t => kd (zn 0%Z pos t) p * zn 0 vals t)); [lia| | |].
  - rewrite zlen_rep by lia. split; [reflexivity|]. intros p Hp. rewrite rsum_empty by lia. unfold zn. rewrite nth_repeat. destruct (p <? 0)%Z; reflexivity.
  - intros k rhs Hk (L & V). specialize (Hr k Hk) as Hrk. rewrite (rd_ok 0%Z) by lia. cbn [bind]. rewrite (rd_ok 0) by lia. cbn [bind]. rewrite wr_ok by lia. apply wp_ok. rewrite zlen_zupd. split; [exact L|].
    intros p Hp. rewrite zn_zupd by lia. rewrite rsum_last by lia. destruct (Z.eqb_spec p (zn 0%Z pos k)) as [->|Np].
    + rewrite rsum_0. { rewrite kd_same. ring. } intros t Ht. rewrite kd_ne; [ring|]. intros E. apply Hds in E; lia.
    + rewrite V by lia. rewrite kd_ne by lia. ring.
  - intros rhs H'. exact H'.
Qed.
Record appended (dim : Z) (solve : arr -> option arr) (number update : Z) (Mpos : list Z) (Mvals : arr) (Npos : list Z) (Nvals : arr) (N_diag : R) (w w' : schur) : Prop := {
  a_max : sc_max w' = sc_max w; a_n : sc_n w' = (sc_n w + 1)%Z; a_Q : sc_Q w' = sc_Q w; a_R : sc_R w' = sc_R w; a_det : sc_det w' = sc_det w;
  a_sizes : sizes w'; a_mcols : mcols w'; a_ir : ir_in dim w';
  a_S : forall i j, (0 <= i < sc_n w)%Z -> (0 <= j < sc_n w)%Z -> Sf _ _ _ w' i j = Sf _ _ _ w i j;
  a_sym : forall i, (0 <= i < sc_n w)%Z -> Sf _ _ _ w' (sc_n w) i = Sf _ _ _ w' i (sc_n w);
  a_new : exists rhs sol, zlen rhs = dim /\ (forall p, (0 <= p < dim)%Z -> zn 0 rhs p = spv Mpos Mvals p) /\ solve rhs = Some sol /\
     (forall i, (0 <= i < sc_n w)%Z -> Sf _ _ _ w' i (sc_n w) = colsum w i (zn 0 sol) - spv Npos Nvals i) /\
     Sf _ _ _ w' (sc_n w) (sc_n w) = rsum 0 (zlen Mpos) (fun t => zn 0 Mvals t * zn 0 sol (zn 0%Z Mpos t)) - N_diag;
  a_col : forall j x, (0 <= j < sc_n w)%Z -> colsum w' j x = colsum w j x;
  a_coln : forall x, colsum w' (sc_n w) x = rsum 0 (zlen Mpos) (fun t => zn 0 Mvals t * x (zn 0%Z Mpos t));
  a_idx : forall k, (0 <= k <= sc_n w)%Z -> zn 0%Z (sc_idx w') k = (if (k =? sc_n w)%Z then number else zn 0%Z (sc_idx w) k) /\ zn 0%Z (sc_typ w') k = (if (k =? sc_n w)%Z then update else zn 0%Z (sc_typ w) k) }.

(** column n, then row n *)
Lemma newcol_ok m n (S c : arr) : (0 <= n < m)%Z -> zlen S = (m * m)%Z -> (n <= zlen c)%Z ->
  wp (for_up 0 n (fun i S => v <- rd c i ;; wr S (n * m + i)%Z v) S) (fun S' => zlen S' = (m * m)%Z /\ forall a b, (0 <= a < m)%Z -> (0 <= b < m)%Z ->
    me m S' a b = if ((b =? n) && (a <? n))%Z then zn 0 c a else me m S a b).
Proof.
  intros Hn L Lc. apply wp_for_up with (I := fun k S' => zlen S' = (m * m)%Z /\ forall a b, (0 <= a < m)%Z -> (0 <= b < m)%Z -> me m S' a b = if ((b =? n) && (a <? k))%Z then zn 0 c a else me m S a b); [lia| | |].
  - split; [exact L|]. intros a b Ha Hb. destruct (Z.ltb_spec a 0); [lia|]. now rewrite andb_false_r.
  - intros k S1 Hk (L1 & V1). rewrite (rd_ok 0) by lia. cbn [bind]. replace (n * m + k)%Z with (k + n * m)%Z by lia. rewrite wr_me by lia. apply wp_ok. rewrite zlen_zupd. split; [exact L1|]. intros a b Ha Hb. rewrite me_upd by lia. rewrite V1 by assumption.
    destruct (Z.eqb_spec a k) as [->|], (Z.eqb_spec b n) as [->|]; cbn [andb]; try reflexivity.
    + destruct (Z.ltb_spec k (k + 1)); [reflexivity|lia].
    + destruct (Z.ltb_spec a k), (Z.ltb_spec a (k + 1)); try lia; reflexivity.
  - intros S1 H. exact H.
Qed.
Lemma newrow_ok m n (S c : arr) : (0 <= n < m)%Z -> zlen S = (m * m)%Z -> (n <= zlen c)%Z ->
  wp (for_up 0 n (fun i S => v <- rd c i ;; wr S (i * m + n)%Z v) S) (fun S' => zlen S' = (m * m)%Z /\ forall a b, (0 <= a < m)%Z -> (0 <= b < m)%Z ->
    me m S' a b = if ((a =? n) && (b <? n))%Z then zn 0 c b else me m S a b).
Proof.
  intros Hn L Lc. apply wp_for_up with (I := fun k S' => zlen S' = (m * m)%Z /\ forall a b, (0 <= a < m)%Z -> (0 <= b < m)%Z -> me m S' a b = if ((a =? n) && (b <? k))%Z then zn 0 c b else me m S a b); [lia| | |].
  - split; [exact L|]. intros a b Ha Hb. destruct (Z.ltb_spec b 0); [lia|]. now rewrite andb_false_r.
  - intros k S1 Hk (L1 & V1). rewrite (rd_ok 0) by lia. cbn [bind]. replace (k * m + n)%Z with (n + k * m)%Z by lia. rewrite wr_me by lia. apply wp_ok. rewrite zlen_zupd. split; [exact L1|]. intros a b Ha Hb. rewrite me_upd by lia. rewrite V1 by assumption.
    destruct (Z.eqb_spec b k) as [->|], (Z.eqb_spec a n) as [->|]; cbn [andb]; try reflexivity.
    + destruct (Z.ltb_spec k (k + 1)); [reflexivity|lia].
    + destruct (Z.ltb_spec b k), (Z.ltb_spec b (k + 1)); try lia; reflexivity.
  - intros S1 H. exact H.
Qed.
Lemma prefix_ok {A} (d : A) len (a b : list A) : (0 <= len <= zlen a)%Z -> (len <= zlen b)%Z ->
  wp (for_up 0 len (fun i b => v <- rd a i ;; wr b i v) b) (fun b' => zlen b' = zlen b /\ forall i, (0 <= i < len)%Z -> zn d b' i = zn d a i).
Proof.
  intros Ha Hb. apply wp_for_up with (I := fun k b' => zlen b' = zlen b /\ forall i, (0 <= i < k)%Z -> zn d b' i = zn d a i); [lia| | |].
  - split; [reflexivity|]. intros; lia.
  - intros k b1 Hk (L & V). rewrite (rd_ok d) by lia. cbn [bind]. rewrite wr_ok by lia. apply wp_ok. rewrite zlen_zupd. split; [exact L|]. intros i Hi. rewrite zn_zupd by lia. destruct (Z.eqb_spec i k) as [->|]; [reflexivity|]. apply V; lia.
  - intros b1 H. exact H.
Qed.
Theorem add_ok dim solve number update Mpos (Mvals : arr) Npos (Nvals : arr) (N_diag : R) (w : schur) : (0 <= dim)%Z -> sizes w -> mcols w -> ir_in dim w -> (sc_n w < sc_max w)%Z ->
  upd_data dim (sc_n w) Mpos Mvals Npos Nvals -> (forall rhs sol : arr, zlen rhs = dim -> solve rhs = Some sol -> zlen sol = dim) ->
  wp (addToSchurComplement (N := N) solve dim number update Mpos Mvals Npos Nvals N_diag w) (fun r =>
    fst r = RET_MATRIX_FACTORISATION_FAILED /\ snd r = w /\ (exists rhs : arr, zlen rhs = dim /\ solve rhs = None) \/
    fst r = SUCCESSFUL_RETURN /\ appended dim solve number update Mpos Mvals Npos Nvals N_diag w (snd r)).
Proof.
  intros Hd HZ C IR Hnm [UM UN UMr UMd UNr] HS. pose proof HZ as Z'. destruct Z' as [Zn ZS ZQ ZR Zjc Zidx Ztyp]. pose proof (mono_le w C) as MM. pose proof C as C'. destruct C' as [C0 C1 C2 C3].
  unfold addToSchurComplement. rcar. set (n := sc_n w) in *. set (m := sc_max w) in *.
  apply wp_bind. eapply wp_mono; [apply (scatter_ok dim Mpos Mvals); assumption|]. cbv beta. intros rhs (Lr & Vr).
  destruct (solve rhs) as [sol|] eqn:Es; [|apply wp_ok; left; split; [reflexivity|split; [reflexivity|exists rhs; split; assumption]]]. pose proof (HS rhs sol Lr Es) as Lsol.
  apply wp_bind. eapply wp_mono; [apply (mtt_ok dim w sol); try assumption; rewrite zlen_rep; fold n; lia|]. cbv beta. intros c1 (Lc1 & Vc1). fold n in Lc1, Vc1. pose proof (zlen_nonneg Mpos) as PM. pose proof (zlen_nonneg Npos) as PN.
  apply wp_bind. apply wp_for_up with (I := fun k (c : arr) => zlen c = n /\ forall i, (0 <= i < n)%Z -> zn 0 c i = zn 0 c1 i - rsum 0 k (fun t => kd (zn 0%Z Npos t) i * zn 0 Nvals t)); [lia| | |].
  { split; [exact Lc1|]. intros i Hi. rewrite rsum_empty by lia. ring. }
  { intros k c Hk (L & V). pose proof (UNr k Hk) as Hp. rewrite (rd_ok 0%Z) by lia. cbn [bind]. rewrite (rd_ok 0) by lia. cbn [bind]. rewrite (rd_ok 0) by lia. cbn [bind]. rewrite wr_ok by lia. apply wp_ok. rnum. rewrite zlen_zupd. split; [exact L|].
    intros i Hi. rewrite zn_zupd by lia. rewrite rsum_last by lia. destruct (Z.eqb_spec i (zn 0%Z Npos k)) as [->|Ni]; rewrite V by lia; [rewrite kd_same|rewrite kd_ne by lia]; ring. }
  intros c2 (Lc2 & Vc2).
  apply wp_bind. apply wp_for_up with (I := fun k (d : R) => d = rsum 0 k (fun t => zn 0 Mvals t * zn 0 sol (zn 0%Z Mpos t)) - N_diag); [lia| | |].
  { rewrite rsum_empty by lia. rnum. ring. }
  { intros k d Hk ->. pose proof (UMr k Hk) as Hp. rewrite (rd_ok 0) by lia. cbn [bind]. rewrite (rd_ok 0%Z) by lia. cbn [bind]. rewrite (rd_ok 0) by lia. cbn [bind]. apply wp_ok. rnum. rewrite rsum_last by lia. ring. }
  intros sdiag Hsd.
  apply wp_bind. eapply wp_mono; [apply (newcol_ok m n (sc_S w) c2); try assumption; lia|]. cbv beta. intros S1 (LS1 & VS1).
  apply wp_bind. eapply wp_mono; [apply (newrow_ok m n S1 c2); try assumption; lia|]. cbv beta. intros S2 (LS2 & VS2).
  replace (n * m + n)%Z with (n + n * m)%Z by lia. rewrite wr_me by lia. cbn [bind].
  rewrite wr_ok by lia. cbn [bind]. rewrite wr_ok by lia. cbn [bind]. rewrite (rd_ok 0%Z) by lia. cbn [bind].
  set (len := zn 0%Z (sc_jc w) n) in *. pose proof (MM 0%Z n ltac:(lia) ltac:(lia)) as PL.
  apply wp_bind. eapply wp_mono with (P := fun p : list Z * arr => zlen (fst p) = zlen (snd p) /\ (len + zlen Mpos <= zlen (snd p))%Z /\
     (forall k, (0 <= k < len)%Z -> zn 0%Z (fst p) k = zn 0%Z (sc_ir w) k) /\ (forall k, (0 <= k < len)%Z -> zn 0 (snd p) k = zn 0 (sc_mv w) k)).
  { match goal with |- wp (if (?a <? ?b)%Z then _ else _) _ => destruct (Z.ltb_spec a b) as [G|G] end.
    - apply wp_bind. eapply wp_mono; [apply (prefix_ok (0 : R) len (sc_mv w)); rewrite ?zlen_rep; rcar; lia|]. cbv beta. intros mv (Lmv & Vmv).
      apply wp_bind. eapply wp_mono; [apply (prefix_ok 0%Z len (sc_ir w)); rewrite ?zlen_rep; rcar; lia|]. cbv beta. intros ir (Lir & Vir). apply wp_ok. cbn [fst snd]. rewrite zlen_rep in Lmv by (rcar; lia). rewrite zlen_rep in Lir by (rcar; lia).
      split; [rcar; lia|]. split; [rcar; lia|]. split; assumption.
    - apply wp_ok. cbn [fst snd]. split; [exact C3|]. split; [exact G|]. split; reflexivity. }
  intros [ir1 mv1] (L1 & L2 & V1 & V2). cbn [fst snd] in *.
  apply wp_bind. apply wp_for_up with (I := fun k (p : list Z * arr) => zlen (fst p) = zlen ir1 /\ zlen (snd p) = zlen mv1 /\
     (forall i, (0 <= i < len + k)%Z -> zn 0%Z (fst p) i = if (i <? len)%Z then zn 0%Z ir1 i else zn 0%Z Mpos (i - len)) /\ (forall i, (0 <= i < len + k)%Z -> zn 0 (snd p) i = if (i <? len)%Z then zn 0 mv1 i else zn 0 Mvals (i - len)%Z)); [lia| | |].
  { cbn [fst snd]. do 2 (split; [reflexivity|]). split; intros i Hi; destruct (Z.ltb_spec i len); try lia; reflexivity. }
  { intros k [ir mv] Hk (K1 & K2 & K3 & K4). cbn [fst snd] in *. rewrite (rd_ok 0) by lia. cbn [bind]. rewrite (rd_ok 0%Z) by lia. cbn [bind]. rewrite wr_ok by lia. cbn [bind]. rewrite wr_ok by lia. apply wp_ok. cbn [fst snd]. rewrite !zlen_zupd. do 2 (split; [assumption|]).
    split; intros i Hi; rewrite zn_zupd by lia; (destruct (Z.eqb_spec i (len + k)) as [->|]; [destruct (Z.ltb_spec (len + k) len); [lia|]; f_equal; lia|]); [apply K3|apply K4]; lia. }
  intros [ir mv] (K1 & K2 & K3 & K4). cbn [fst snd] in *.
  rewrite wr_ok by lia. cbn [bind]. apply wp_ok. right. split; [reflexivity|]. cbn [snd].
  match goal with |- appended _ _ _ _ _ _ _ _ _ _ ?x => set (w' := x) end.
  assert (JC : forall k, (0 <= k <= n + 1)%Z -> zn 0%Z (sc_jc w') k = if (k =? n + 1)%Z then (len + zlen Mpos)%Z else zn 0%Z (sc_jc w) k) by (intros k Hk; unfold w'; cbn [sc_jc]; apply zn_zupd; lia).
  assert (SV : forall a b, (0 <= a < m)%Z -> (0 <= b < m)%Z -> Sf _ _ _ w' a b = if ((a =? n) && (b =? n))%Z then sdiag else if ((a =? n) && (b <? n))%Z then zn 0 c2 b else if ((b =? n) && (a <? n))%Z then zn 0 c2 a else Sf _ _ _ w a b).
  { intros a b Ha Hb. unfold Sf. unfold w' at 1 2. cbn [sc_S sc_max]. fold m. rewrite me_upd by lia. rewrite VS2, VS1 by lia. reflexivity. }
  constructor.
  - reflexivity.
  - reflexivity.
  - reflexivity.
  - reflexivity.
  - reflexivity.
  - constructor; unfold w'; cbn [sc_max sc_n sc_S sc_Q sc_R sc_det sc_jc sc_ir sc_mv sc_idx sc_typ]; rewrite ?zlen_zupd; fold n m; try assumption; lia.
  - constructor.
    + rewrite JC by lia. destruct (Z.eqb_spec 0 (n + 1)); lia.
    + intros i Hi. unfold w' in Hi. cbn [sc_n] in Hi. rewrite !JC by lia. destruct (Z.eqb_spec i (n + 1)); [lia|]. destruct (Z.eqb_spec (i + 1) (n + 1)); [replace i with n by lia; fold len; lia|]. apply C1; lia.
    + change (sc_n w') with (n + 1)%Z. rewrite JC by lia. rewrite Z.eqb_refl. unfold w'. cbn [sc_ir]. rcar. lia.
    + unfold w'. cbn [sc_ir sc_mv]. rcar. lia.
  - intros k. change (sc_n w') with (n + 1)%Z. rewrite JC by lia. rewrite Z.eqb_refl. intros Hk. unfold w'. cbn [sc_ir]. rewrite K3 by lia. destruct (Z.ltb_spec k len); [rewrite V1 by lia; apply IR; fold n len; lia|apply UMr; lia].
  - intros i j Hi Hj. fold n in Hi, Hj. rewrite SV by lia. destruct (Z.eqb_spec i n), (Z.eqb_spec j n); try lia. reflexivity.
  - intros i Hi. fold n in Hi |- *. rewrite !SV by lia. destruct (Z.eqb_spec i n), (Z.eqb_spec n n), (Z.ltb_spec i n), (Z.ltb_spec n n); try lia. reflexivity.
  - fold n. exists rhs, sol. split; [exact Lr|]. split; [exact Vr|]. split; [exact Es|]. split.
    + intros i Hi. rewrite SV by lia. destruct (Z.eqb_spec i n), (Z.eqb_spec n n), (Z.ltb_spec i n), (Z.ltb_spec n n); try lia. cbn [andb]. rewrite Vc2, Vc1 by lia. unfold spv. ring.
    + rewrite SV by lia. rewrite Z.eqb_refl. exact Hsd.
  - intros j x Hj. fold n in Hj. unfold colsum. rewrite !JC by lia. destruct (Z.eqb_spec j (n + 1)), (Z.eqb_spec (j + 1) (n + 1)); try lia. apply rsum_ext. intros k Hk. pose proof (MM 0%Z j ltac:(lia) ltac:(lia)). pose proof (MM (j + 1)%Z n ltac:(lia) ltac:(fold n; lia)). fold len in H0.
    unfold w'. cbn [sc_ir sc_mv]. rcar. rewrite K3, K4 by lia. destruct (Z.ltb_spec k len); [|lia]. rewrite V1, V2 by lia. reflexivity.
  - intros x. fold n. unfold colsum. rewrite !JC by lia. destruct (Z.eqb_spec n (n + 1)); [lia|]. rewrite Z.eqb_refl. fold len. replace (rsum len (len + zlen Mpos)) with (rsum (0 + len) (zlen Mpos + len)) by (f_equal; lia). rewrite <- rsum_shift.
    apply rsum_ext. intros t Ht. unfold w'. cbn [sc_ir sc_mv]. rcar. rewrite K3, K4 by lia. destruct (Z.ltb_spec (t + len) len); [lia|]. now replace (t + len - len)%Z with t by lia.
  - intros k Hk. fold n in Hk |- *. unfold w'. cbn [sc_idx sc_typ]. rewrite !zn_zupd by lia. destruct (Z.eqb_spec k n); split; reflexivity.
Qed.
End E.
