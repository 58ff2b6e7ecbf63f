(** Properties C21, C22 and the sparse part of C23: column and row compressed
    matrices represent what they were built from and compute its products. *)
From Verif Require Import Base Types Num Indexlist IndexlistProofs RSum Loops Utils PropUtils Matrices MatLib PropDense CsLib.
Local Open Scope R_scope.

(** entry (i,j) of a column compressed and of a row compressed matrix *)
Definition wf_sparse (A : sparseM R) : Prop := wf_cs (s_nc A) (s_nr A) (s_jc A) (s_ir A) (s_val A).
Definition smat (A : sparseM R) (i j : Z) : R := ent (s_jc A) (s_ir A) (s_val A) j i.
Definition wf_sprow (A : sprowM R) : Prop := wf_cs (r_nr A) (r_nc A) (r_jr A) (r_ic A) (r_val A).
Definition rmat (A : sprowM R) (i j : Z) : R := ent (r_jr A) (r_ic A) (r_val A) i j.

Section Sparse.
Variables eps zero infty : R.
Hypothesis zero_pos : 0 <= zero.
Notation N := (RNumT eps zero infty).

(** ** C21: construction and expansion *)

(** the common shape of the two constructors: [at_ j i] is the address of
    component i of vector j in the dense array *)
Definition build (n m : Z) (at_ : Z -> Z -> Z) (dg : Z -> Z -> bool) (v : list R) (jptr jidx : list Z) (jval : list R)
    : res (list Z * list Z * list R) :=
  st <- for_up 0 n (fun j st =>
    let '(jc, ir, val, nnz) := st in
    jc <- wr jc j nnz ;;
    st <- for_up 0 m (fun i st =>
      let '(ir, val, nnz) := st in
      a <- rd v (at_ j i) ;;
      if negb (isZeroT (N := N) a n0) || dg j i then
        ir <- wr ir nnz i ;; val <- wr val nnz a ;; Ok (ir, val, nnz + 1)%Z
      else Ok (ir, val, nnz)) (ir, val, nnz) ;;
    let '(ir, val, nnz) := st in
    Ok (jc, ir, val, nnz)) (jptr, jidx, jval, 0%Z) ;;
  let '(jc, ir, val, nnz) := st in
  jc <- wr jc n nnz ;;
  Ok (jc, ir, val).

Lemma ent_ext ptr idx val ptr' idx' val' j r :
  zn 0%Z ptr j = zn 0%Z ptr' j -> zn 0%Z ptr (j + 1) = zn 0%Z ptr' (j + 1) ->
  (forall p, (zn 0 ptr j <= p < zn 0 ptr (j + 1))%Z -> zn 0%Z idx p = zn 0%Z idx' p /\ zn 0 val p = zn 0 val' p) ->
  ent ptr idx val j r = ent ptr' idx' val' j r.
Proof.
  intros E1 E2 H. unfold ent. rewrite <- E1, <- E2. apply rsum_ext. intros p Hp. destruct (H p Hp) as [-> ->]. reflexivity.
Qed.

(** partial construction: vectors before j are complete; of vector j the
    components below i are stored at positions from b on *)
Definition part (m : Z) (at_ : Z -> Z -> Z) (dg : Z -> Z -> bool) (v : list R) (j i b : Z) (ir : list Z) (val : list R) (nnz : Z) : Prop :=
  (b <= nnz <= b + i)%Z /\
  (forall p, (b <= p < nnz)%Z -> (0 <= zn 0 ir p < i)%Z /\ zn 0 val p = zn 0 v (at_ j (zn 0%Z ir p)) /\ (p + 1 < nnz -> zn 0 ir p < zn 0 ir (p + 1))%Z) /\
  (forall r, (0 <= r < i)%Z -> zn 0 v (at_ j r) <> 0 \/ dg j r = true -> exists p, (b <= p < nnz)%Z /\ zn 0%Z ir p = r).

Lemma part_ent m at_ dg v j b ir val nnz r ptr :
  part m at_ dg v j m b ir val nnz -> zn 0%Z ptr j = b -> zn 0%Z ptr (j + 1) = nnz -> (0 <= r < m)%Z ->
  ent ptr ir val j r = zn 0 v (at_ j r).
Proof.
  intros (H1 & H2 & H3) E1 E2 Hr. unfold ent. rewrite E1, E2.
  assert (SRT : forall d p, (b <= p)%Z -> (p + Z.of_nat (S d) < nnz)%Z -> (zn 0 ir p < zn 0 ir (p + Z.of_nat (S d)))%Z).
  { induction d as [|d IH]; intros p Hp Hd.
    - apply H2; lia.
    - specialize (IH p Hp ltac:(lia)). destruct (H2 (p + Z.of_nat (S d))%Z ltac:(lia)) as (_ & _ & H4). specialize (H4 ltac:(lia)).
      replace (p + Z.of_nat (S (S d)))%Z with (p + Z.of_nat (S d) + 1)%Z by lia. lia. }
  assert (INJ : forall p q, (b <= p < nnz)%Z -> (b <= q < nnz)%Z -> zn 0%Z ir p = zn 0%Z ir q -> p = q).
  { intros p q Hp Hq E. destruct (Z.lt_total p q) as [L|[L|L]]; [|assumption|]; exfalso.
    - specialize (SRT (Z.to_nat (q - p - 1)) p ltac:(lia) ltac:(lia)). replace (p + Z.of_nat (S (Z.to_nat (q - p - 1))))%Z with q in SRT by lia. lia.
    - specialize (SRT (Z.to_nat (p - q - 1)) q ltac:(lia) ltac:(lia)). replace (q + Z.of_nat (S (Z.to_nat (p - q - 1))))%Z with p in SRT by lia. lia. }
  destruct (Req_dec (zn 0 v (at_ j r)) 0) as [E0|NE0].
  - rewrite E0. apply rsum_0. intros p Hp. destruct (Z.eqb_spec (zn 0%Z ir p) r) as [E|]; [|reflexivity].
    destruct (H2 p Hp) as (_ & Hv & _). rewrite Hv, E. assumption.
  - destruct (H3 r Hr (or_introl NE0)) as (p & Hp & E). rewrite (rsum_delta _ _ p); [|assumption|].
    + rewrite E, Z.eqb_refl. destruct (H2 p Hp) as (_ & Hv & _). now rewrite Hv, E.
    + intros q Hq Hne. destruct (Z.eqb_spec (zn 0%Z ir q) r) as [E'|]; [|reflexivity]. exfalso. apply Hne. apply INJ; auto. congruence.
Qed.

Lemma build_ok n m at_ dg v jptr jidx jval : (0 <= n)%Z -> (0 <= m)%Z ->
  (forall j i, (0 <= j < n)%Z -> (0 <= i < m)%Z -> (0 <= at_ j i < zlen v)%Z) ->
  (n < zlen jptr)%Z -> (n * m <= zlen jidx)%Z -> (n * m <= zlen jval)%Z ->
  exists ptr idx val, build n m at_ dg v jptr jidx jval = Ok (ptr, idx, val) /\ wf_cs n m ptr idx val /\
    (forall j i, (0 <= j < n)%Z -> (0 <= i < m)%Z -> ent ptr idx val j i = zn 0 v (at_ j i)) /\
    (forall j i, (0 <= j < n)%Z -> (0 <= i < m)%Z -> dg j i = true -> exists p, (zn 0 ptr j <= p < zn 0 ptr (j + 1))%Z /\ zn 0%Z idx p = i).
Proof.
  intros Hn Hm Ha Lp Li Lv.
  set (nx := fun j (jc : list Z) nnz j' => if (j' + 1 =? j)%Z then nnz else zn 0%Z jc (j' + 1)).
  set (Inv := fun j (st : list Z * list Z * list R * Z) => let '(jc, ir, val, nnz) := st in
    zlen jc = zlen jptr /\ zlen ir = zlen jidx /\ zlen val = zlen jval /\ (0 <= nnz <= j * m)%Z /\
    (forall j', (0 <= j' < j)%Z -> part m at_ dg v j' m (zn 0%Z jc j') ir val (nx j jc nnz j') /\ (0 <= zn 0 jc j')%Z /\ (nx j jc nnz j' <= nnz)%Z) /\
    ((0 < j)%Z -> zn 0%Z jc 0 = 0%Z) /\ (j = 0%Z -> nnz = 0%Z)).
  assert (PE : forall j i b ir val ir' val' nnz, part m at_ dg v j i b ir val nnz ->
     (forall p, (b <= p < nnz)%Z -> zn 0%Z ir' p = zn 0%Z ir p /\ zn 0 val' p = zn 0 val p) -> part m at_ dg v j i b ir' val' nnz).
  { intros j i b ir val ir' val' nnz (P1 & P2 & P3) H. split; [assumption|]. split.
    - intros p Hp. destruct (H p Hp) as [-> ->]. destruct (P2 p Hp) as (A1 & A2 & A3). repeat split; try assumption; try lia.
      intros Hp1. destruct (H (p + 1)%Z ltac:(lia)) as [-> _]. auto.
    - intros r Hr Hd. destruct (P3 r Hr Hd) as (p & Hp & E). exists p. split; [assumption|]. destruct (H p Hp) as [-> _]. assumption. }
  assert (W : wp (build n m at_ dg v jptr jidx jval) (fun r => let '(ptr, idx, val) := r in exists nnz, (0 <= nnz <= n * m)%Z /\
     zlen ptr = zlen jptr /\ zlen idx = zlen jidx /\ zlen val = zlen jval /\ zn 0%Z ptr n = nnz /\ zn 0%Z ptr 0 = 0%Z /\
     (forall j', (0 <= j' < n)%Z -> part m at_ dg v j' m (zn 0%Z ptr j') idx val (zn 0%Z ptr (j' + 1))))).
  { unfold build. apply wp_bind. apply wp_for_up with (I := Inv); [assumption| | |].
    - cbn. repeat split; try lia; intros; try lia.
    - intros j [[[jc ir] val] nnz] Hj (L1 & L2 & L3 & Hz & P & F0 & F1). rewrite wr_ok by lia. cbn [bind]. apply wp_bind.
      apply wp_for_up with (I := fun i (st : list Z * list R * Z) => let '(ir', val', nnz') := st in
         zlen ir' = zlen jidx /\ zlen val' = zlen jval /\ (forall p, (0 <= p < nnz)%Z -> zn 0%Z ir' p = zn 0%Z ir p /\ zn 0 val' p = zn 0 val p) /\
         part m at_ dg v j i nnz ir' val' nnz').
      + assumption.
      + split; [assumption|]. split; [assumption|]. split; [auto|]. split; [lia|]. split; intros; lia.
      + intros i [[ir' val'] nnz'] Hi (M1 & M2 & M3 & M4 & M5 & M6).
        rewrite (rd_ok 0) by auto. cbn [bind]. set (a := zn 0 v (at_ j i)).
        assert (KZ : isZeroT (N := N) a n0 = Rleb (Rabs a) 0) by (rnum; reflexivity). rewrite KZ.
        assert (nnz' < n * m)%Z by (assert (j * m <= (n - 1) * m)%Z by (apply Z.mul_le_mono_nonneg_r; lia); lia).
        destruct (negb (Rleb (Rabs a) 0) || dg j i) eqn:K.
        * rewrite wr_ok by lia. cbn [bind]. rewrite wr_ok by (rcar; lia). cbn [bind wp].
          split; [now rewrite zlen_zupd|]. split; [now rewrite zlen_zupd|].
          split. { intros p Hp. destruct (M3 p Hp) as [<- <-]. now rewrite !zn_zupd_ne by lia. }
          split; [lia|]. split.
          -- intros p Hp. destruct (Z.eq_dec p nnz') as [->|Hne].
             ++ rewrite !zn_zupd_eq by (rcar; lia). split; [lia|]. split; [reflexivity|lia].
             ++ destruct (M5 p ltac:(lia)) as (Q1 & Q2 & Q3). rewrite !(zn_zupd_ne _ _ nnz' p) by lia. split; [lia|]. split; [assumption|]. intros Hp1.
                destruct (Z.eq_dec (p + 1) nnz') as [E|NE]; [|rewrite zn_zupd_ne by lia; apply Q3; lia].
                rewrite E, zn_zupd_eq by lia. lia.
          -- intros r Hr Hd. destruct (Z.eq_dec r i) as [->|Hne].
             ++ exists nnz'. split; [lia|]. now rewrite zn_zupd_eq by lia.
             ++ destruct (M6 r ltac:(lia) Hd) as (p & Hp & E). exists p. split; [lia|]. now rewrite zn_zupd_ne by lia.
        * cbn [wp]. apply orb_false_iff in K as [K1 K2]. apply negb_false_iff in K1. destruct (Rleb_spec (Rabs a) 0) as [Ka|]; [|discriminate].
          assert (a = 0) by (destruct (Req_dec a 0) as [E|E]; [assumption|apply Rabs_pos_lt in E; lra]).
          split; [assumption|]. split; [assumption|]. split; [assumption|]. split; [lia|]. split.
          -- intros p Hp. destruct (M5 p Hp) as (Q1 & Q2 & Q3). split; [lia|]. auto.
          -- intros r Hr Hd. destruct (Z.eq_dec r i) as [->|Hne]; [|apply M6; auto; lia]. exfalso. destruct Hd as [Hd|Hd]; [now apply Hd|congruence].
      + intros [[ir' val'] nnz'] (M1 & M2 & M3 & M4). pose proof M4 as (M5 & _). cbn [wp]. cbv beta iota.
        split; [now rewrite zlen_zupd|]. split; [assumption|]. split; [assumption|]. split; [lia|].
        split; [|split].
        * intros j' Hj'. destruct (Z.eq_dec j' j) as [->|Hne].
          -- unfold nx. rewrite zn_zupd_eq by lia. rewrite Z.eqb_refl. split; [assumption|]. lia.
          -- destruct (P j' ltac:(lia)) as (P1 & P2 & P3). 
             assert (EN : nx (j + 1)%Z (zupd jc j nnz) nnz' j' = nx j jc nnz j').
             { unfold nx. destruct (Z.eqb_spec (j' + 1) (j + 1)); [lia|]. destruct (Z.eqb_spec (j' + 1) j) as [E|E].
               - now rewrite E, zn_zupd_eq by lia.
               - now rewrite zn_zupd_ne by lia. }
             rewrite EN. rewrite zn_zupd_ne by lia. split; [|lia].
             apply (PE j' m _ ir val); [assumption|]. intros p Hp. apply M3. lia.
        * intros _. destruct (Z.eq_dec j 0) as [->|]; [rewrite zn_zupd_eq by lia; auto|rewrite zn_zupd_ne by lia; apply F0; lia].
        * lia.
    - intros [[[jc ir] val] nnz] (L1 & L2 & L3 & Hz & P & F0 & F1). rewrite wr_ok by lia. cbn [bind wp]. exists nnz.
      split; [assumption|]. split; [now rewrite zlen_zupd|]. split; [assumption|]. split; [assumption|].
      split; [now rewrite zn_zupd_eq by lia|]. split.
      { destruct (Z.eq_dec n 0) as [->|]; [rewrite zn_zupd_eq by lia; auto|rewrite zn_zupd_ne by lia; apply F0; lia]. }
      intros j' Hj'. destruct (P j' Hj') as (P1 & _ & _). rewrite (zn_zupd_ne _ _ n j') by lia. unfold nx in P1.
      destruct (Z.eqb_spec (j' + 1) n) as [E|E]; [now rewrite E, zn_zupd_eq by lia|now rewrite zn_zupd_ne by lia]. }
  apply wp_inv in W as ([[ptr idx] val] & E & nnz & Hz & L1 & L2 & L3 & En & E0 & P).
  assert (MONO : forall j, (0 <= j < n)%Z -> (zn 0 ptr j <= zn 0 ptr (j + 1))%Z) by (intros j Hj; destruct (P j Hj) as (H & _); lia).
  assert (FIND : forall k : nat, (Z.of_nat k <= n)%Z -> forall p, (0 <= p < zn 0 ptr (Z.of_nat k))%Z -> exists j, (0 <= j < Z.of_nat k)%Z /\ (zn 0 ptr j <= p < zn 0 ptr (j + 1))%Z).
  { induction k as [|k IH]; intros Hk p Hp; [change (Z.of_nat 0) with 0%Z in Hp; lia|].
    destruct (Z.lt_ge_cases p (zn 0%Z ptr (Z.of_nat k))) as [L|L].
    - destruct (IH ltac:(lia) p ltac:(lia)) as (j & Hj & Hp'). exists j. split; [lia|assumption].
    - exists (Z.of_nat k). split; [lia|]. replace (Z.of_nat k + 1)%Z with (Z.of_nat (S k)) by lia. lia. }
  exists ptr, idx, val. split; [exact E|]. split; [|split].
  - split; try assumption; try lia.
    + intros p Hp. destruct (FIND (Z.to_nat n) ltac:(lia) p) as (j & Hj & Hp'); [rewrite Z2Nat.id by lia; lia|].
      destruct (P j ltac:(lia)) as (_ & H & _). destruct (H p Hp') as (H1 & _). lia.
    + intros j p q Hj Hp Hq. destruct (P j Hj) as (_ & H & _).
      assert (SRT : forall d p, (zn 0 ptr j <= p)%Z -> (p + Z.of_nat (S d) < zn 0 ptr (j + 1))%Z -> (zn 0 idx p < zn 0 idx (p + Z.of_nat (S d)))%Z).
      { induction d as [|d IH]; intros p0 Hp0 Hd.
        - apply H; lia.
        - specialize (IH p0 Hp0 ltac:(lia)). destruct (H (p0 + Z.of_nat (S d))%Z ltac:(lia)) as (_ & _ & H4). specialize (H4 ltac:(lia)).
          replace (p0 + Z.of_nat (S (S d)))%Z with (p0 + Z.of_nat (S d) + 1)%Z by lia. lia. }
      specialize (SRT (Z.to_nat (q - p - 1)) p ltac:(lia) ltac:(lia)). replace (p + Z.of_nat (S (Z.to_nat (q - p - 1))))%Z with q in SRT by lia. exact SRT.
  - intros j i Hj Hi. now apply (part_ent m at_ dg v j _ idx val _ i ptr (P j Hj)).
  - intros j i Hj Hi Hd. destruct (P j Hj) as (_ & _ & H). apply H; auto.
Qed.

(** ** Expansion *)
Lemma expand_ok n m ptr idx val (ad : Z -> Z -> Z) L : wf_cs n m ptr idx val ->
  distinct n m ad -> (forall j i, (0 <= j < n)%Z -> (0 <= i < m)%Z -> (0 <= ad j i < L)%Z) ->
  exists v, for_up 0 n (fun j v => each_entry ptr j (fun p v => r <- rd idx p ;; a <- rd val p ;; wr v (ad j r) a) v) (repeat 0 (Z.to_nat L)) = Ok v /\
    zlen v = Z.max 0 L /\ forall j i, (0 <= j < n)%Z -> (0 <= i < m)%Z -> zn 0 v (ad j i) = ent ptr idx val j i.
Proof.
  intros WF D B. pose proof (cs_n _ _ _ _ _ WF) as Hn.
  assert (W : wp (for_up 0 n (fun j v => each_entry ptr j (fun p v => r <- rd idx p ;; a <- rd val p ;; wr v (ad j r) a) v) (repeat 0 (Z.to_nat L)))
    (fun v => zlen v = Z.max 0 L /\ forall j i, (0 <= j < n)%Z -> (0 <= i < m)%Z -> zn 0 v (ad j i) = ent ptr idx val j i)).
  { apply wp_for_up with (I := fun k v => zlen v = Z.max 0 L /\
      forall j i, (0 <= j < n)%Z -> (0 <= i < m)%Z -> zn 0 v (ad j i) = if (j <? k)%Z then ent ptr idx val j i else 0); auto.
    - split; [rewrite zlen_repeat; lia|]. intros j i Hj Hi. specialize (B j i Hj Hi). rewrite zn_repeat by lia. destruct (Z.ltb_spec j 0); [lia|reflexivity].
    - intros k v Hk [Lv V]. rewrite (each_entry_eq n m ptr idx val WF) by assumption.
      pose proof (cs_mono _ _ _ _ _ WF k Hk) as Hm.
      apply wp_for_up with (I := fun p v => zlen v = Z.max 0 L /\
        forall j i, (0 <= j < n)%Z -> (0 <= i < m)%Z -> zn 0 v (ad j i) = if (j <? k)%Z then ent ptr idx val j i else
          if (j =? k)%Z then rsum (zn 0%Z ptr k) p (fun p => if (zn 0%Z idx p =? i)%Z then zn 0 val p else 0) else 0); auto.
      + split; [assumption|]. intros j i Hj Hi. rewrite V by assumption. rewrite rsum_empty by lia.
        destruct (j <? k)%Z; [reflexivity|]. now destruct (j =? k)%Z.
      + clear v Lv V. intros p v Hp [Lv V]. rewrite (rd_idx n m ptr idx val WF k) by assumption. cbn [bind]. rewrite (rd_val n m ptr idx val WF k) by assumption. cbn [bind].
        destruct (pos_in n m ptr idx val WF k p Hk Hp) as (_ & _ & _ & Hr). pose proof (B k (zn 0%Z idx p) Hk Hr) as Hb.
        rewrite wr_ok by lia. cbn [wp]. split; [now rewrite zlen_zupd|]. intros j i Hj Hi. pose proof (B j i Hj Hi).
        rewrite zn_zupd by lia. rewrite rsum_last by lia. destruct (Z.eqb_spec (ad j i) (ad k (zn 0%Z idx p))) as [E|NE].
        * apply D in E as [-> ->]; auto. rewrite Z.ltb_irrefl, !Z.eqb_refl. rewrite rsum_0; [lra|].
          intros q Hq. destruct (Z.eqb_spec (zn 0%Z idx q) (zn 0%Z idx p)) as [E|]; [|reflexivity].
          apply (idx_inj n m ptr idx val WF k) in E; lia.
        * rewrite V by assumption. destruct (j <? k)%Z; [reflexivity|]. destruct (Z.eqb_spec j k) as [->|]; [|reflexivity].
          destruct (Z.eqb_spec (zn 0%Z idx p) i) as [E|]; [subst i; congruence|lra].
      + intros v' [Lv' V']. split; [assumption|]. intros j i Hj Hi. rewrite V' by assumption.
        destruct (Z.ltb_spec j k), (Z.ltb_spec j (k + 1)), (Z.eqb_spec j k); try reflexivity; try lia. subst. reflexivity.
    - intros v [Lv V]. split; [assumption|]. intros j i Hj Hi. rewrite V by assumption. destruct (Z.ltb_spec j n); [reflexivity|lia]. }
  apply wp_inv in W as (v & E & H). exists v. split; [exact E|exact H].
Qed.

(** component r of vector j has a stored entry *)
Definition stored (ptr idx : list Z) (j r : Z) : Prop := exists p, (zn 0 ptr j <= p < zn 0 ptr (j + 1))%Z /\ zn 0%Z idx p = r.

Theorem C21_sparse : forall nr nc ld (v : list R) jjc jir (jval : list R), (0 <= nr)%Z -> (0 <= nc <= ld)%Z ->
  ((0 < nr)%Z -> ((nr - 1) * ld + nc <= zlen v)%Z) ->
  zlen jjc = (nc + 1)%Z -> zlen jir = (nr * nc)%Z -> zlen jval = (nr * nc)%Z ->
  exists A full, s_new (N := N) nr nc ld v jjc jir jval = Ok A /\ s_nr A = nr /\ s_nc A = nc /\ wf_sparse A /\
    (forall i j, (0 <= i < nr)%Z -> (0 <= j < nc)%Z -> smat A i j = zn 0 v (i * ld + j)) /\
    (forall i, (0 <= i < nr)%Z -> (0 <= i < nc)%Z -> stored (s_jc A) (s_ir A) i i) /\
    s_full (N := N) A = Ok full /\ zlen full = (nr * nc)%Z /\
    (forall i j, (0 <= i < nr)%Z -> (0 <= j < nc)%Z -> zn 0 full (i * nc + j) = zn 0 v (i * ld + j)).
Proof.
  intros nr nc ld v jjc jir jval Hr Hc Hv L1 L2 L3.
  assert (0 <= nr * nc)%Z by (apply Z.mul_nonneg_nonneg; lia).
  destruct (build_ok nc nr (fun j i => (i * ld + j)%Z) (fun j i => (i =? j)%Z) v jjc jir jval) as (ptr & idx & val & E & WF & V & DG); try lia.
  { intros j i Hj Hi. apply (dense_in (mkDense nr nc ld v) i j); cbn; auto. unfold wf_dense. cbn. auto. }
  exists (mkSparse nr nc idx ptr None val).
  assert (EN : s_new (N := N) nr nc ld v jjc jir jval = '(ptr, idx, val) <- build nc nr (fun j i => (i * ld + j)%Z) (fun j i => (i =? j)%Z) v jjc jir jval ;; Ok (mkSparse nr nc idx ptr None val)).
  { unfold s_new, build. rcar. match goal with |- bind ?mm _ = bind (bind ?mm' _) _ => change mm' with mm; destruct mm as [[[[? ?] ?] ?]| |]; try reflexivity end.
    cbn [bind]. destruct (wr l nc z); reflexivity. }
  destruct (expand_ok nc nr ptr idx val (fun j r => (r * nc + j)%Z) (nr * nc) WF) as (full & EF & LF & VF).
  { intros k j k' j' Hk Hj Hk' Hj' E'. cbn beta in E'.
    assert (D : distinct nr nc (fun k j => (j + k * nc)%Z)) by (apply (distinct_strided nr nc nc (fun j => j) nc); auto; right; lia).
    destruct (D j k j' k' Hj Hk Hj' Hk' ltac:(cbn beta; lia)). auto. }
  { intros j i Hj Hi. pose proof (dense_in (mkDense nr nc nc (repeat 0 (Z.to_nat (nr * nc)))) i j). unfold wf_dense in H0. cbn in H0.
    rewrite zlen_repeat in H0. rewrite Z2Nat.id in H0 by lia. apply H0; auto. repeat split; lia. }
  exists full. rewrite EN, E. cbn [bind]. split; [reflexivity|]. split; [reflexivity|]. split; [reflexivity|]. split; [exact WF|].
  split. { intros i j Hi Hj. unfold smat. cbn. apply V; auto. }
  split. { intros i Hi Hj. apply DG; auto. apply Z.eqb_refl. }
  split; [exact EF|]. rcar. split; [lia|]. intros i j Hi Hj. rewrite VF by assumption. apply V; auto.
Qed.

Theorem C21_sprow : forall nr nc ld (v : list R) jjr jic (jval : list R), (0 <= nr)%Z -> (0 <= nc <= ld)%Z ->
  ((0 < nr)%Z -> ((nr - 1) * ld + nc <= zlen v)%Z) ->
  zlen jjr = (nr + 1)%Z -> zlen jic = (nr * nc)%Z -> zlen jval = (nr * nc)%Z ->
  exists A full, r_new (N := N) nr nc ld v jjr jic jval = Ok A /\ r_nr A = nr /\ r_nc A = nc /\ wf_sprow A /\
    (forall i j, (0 <= i < nr)%Z -> (0 <= j < nc)%Z -> rmat A i j = zn 0 v (i * ld + j)) /\
    (forall i, (0 <= i < nr)%Z -> (0 <= i < nc)%Z -> stored (r_jr A) (r_ic A) i i) /\
    r_full (N := N) A = Ok full /\ zlen full = (nr * nc)%Z /\
    (forall i j, (0 <= i < nr)%Z -> (0 <= j < nc)%Z -> zn 0 full (i * nc + j) = zn 0 v (i * ld + j)).
Proof.
  intros nr nc ld v jjc jir jval Hr Hc Hv L1 L2 L3.
  assert (0 <= nr * nc)%Z by (apply Z.mul_nonneg_nonneg; lia).
  destruct (build_ok nr nc (fun j i => (j * ld + i)%Z) (fun j i => (j =? i)%Z) v jjc jir jval) as (ptr & idx & val & E & WF & V & DG); try lia.
  { intros j i Hj Hi. apply (dense_in (mkDense nr nc ld v) j i); cbn; auto. unfold wf_dense. cbn. auto. }
  exists (mkSprow nr nc ptr idx None val).
  assert (EN : r_new (N := N) nr nc ld v jjc jir jval = '(ptr, idx, val) <- build nr nc (fun j i => (j * ld + i)%Z) (fun j i => (j =? i)%Z) v jjc jir jval ;; Ok (mkSprow nr nc ptr idx None val)).
  { unfold r_new, build. rcar. match goal with |- bind ?mm _ = bind (bind ?mm' _) _ => change mm' with mm; destruct mm as [[[[? ?] ?] ?]| |]; try reflexivity end.
    cbn [bind]. destruct (wr l nr z); reflexivity. }
  destruct (expand_ok nr nc ptr idx val (fun j r => (r + j * nc)%Z) (nr * nc) WF) as (full & EF & LF & VF).
  { apply (distinct_strided nr nc nc (fun j => j) nc); auto; right; lia. }
  { intros j i Hj Hi. pose proof (dense_in (mkDense nr nc nc (repeat 0 (Z.to_nat (nr * nc)))) j i). unfold wf_dense in H0. cbn in H0.
    rewrite zlen_repeat in H0. rewrite Z2Nat.id in H0 by lia. rewrite Z.add_comm. apply H0; auto. repeat split; lia. }
  exists full. rewrite EN, E. cbn [bind]. split; [reflexivity|]. split; [reflexivity|]. split; [reflexivity|]. split; [exact WF|].
  split. { intros i j Hi Hj. unfold rmat. cbn. apply V; auto. }
  split. { intros i Hi Hj. apply DG; auto. apply Z.eqb_refl. }
  split; [exact EF|]. rcar. split; [lia|]. intros i j Hi Hj. rewrite Z.add_comm. rewrite VF by assumption. apply V; auto.
Qed.

(** ** C22: products with the whole matrix *)

Lemma scatter_ok n m ptr idx val xN alpha (x : list R) xLD beta (y : list R) yLD : wf_cs n m ptr idx val ->
  (0 <= xN)%Z -> fits xN n xLD (zlen x) -> fits xN m yLD (zlen y) -> strided xN m yLD ->
  exists y', bind (beta_pass (N := N) xN m id_row id_row beta y yLD)
    (rows (N := N) xN n (fun k j y => each_entry ptr j (fun p y =>
       r <- rd idx p ;; v <- rd val p ;; xv <- rd x (j + k * xLD) ;; accum (N := N) alpha y (r + k * yLD) v xv) y)) = Ok y' /\
    updated xN m (addr yLD) y y' (snapB zero beta) (fun k r => snapA zero alpha * mv n (fun j => ent ptr idx val j r) (vec x xLD k)).
Proof.
  intros WF HxN Fx Fy Sy. eapply (product eps zero infty xN m id_row id_row (fun j => j)); auto.
  - apply WF.
  - now apply strided_distinct.
  - intros k j Hk Hj. now apply fits_in with xN m.
  - apply adds_rows. intros k j Hk Hj. apply (adds_entry n m ptr idx val WF); [assumption|]. intros p Hp.
    destruct (pos_in n m ptr idx val WF j p Hj Hp) as (_ & _ & _ & Hr).
    eapply adds_ext_m.
    + intros s Hs. rewrite (rd_idx n m ptr idx val WF j) by assumption. cbn [bind]. rcar. rewrite (rd_val n m ptr idx val WF j) by assumption. cbn [bind].
      rewrite (rd_ok 0) by (now apply fits_in with xN n). cbn [bind]. reflexivity.
    + apply adds_accum. now apply fits_in with xN m.
  - intros q Hq. cbn beta. apply rsum_ext. intros k Hk.
    transitivity (rsum 0 n (fun j => rsum 0 m (fun r => ent ptr idx val j r * (if (q =? r + k * yLD)%Z then snapA zero alpha * vec x xLD k j else 0)))).
    { apply rsum_ext. intros j Hj. rewrite <- (ent_sum n m ptr idx val WF j (fun r => if (q =? r + k * yLD)%Z then snapA zero alpha * vec x xLD k j else 0) Hj).
      apply rsum_ext. intros p Hp. destruct (q =? zn 0%Z idx p + k * yLD)%Z; unfold vec; ring. }
    rewrite rsum_swap. apply rsum_ext. intros r Hr. destruct (q =? r + k * yLD)%Z.
    + unfold mv, rsum. rewrite <- lsum_scal. apply lsum_ext. intros j _. ring.
    + apply rsum_0. intros. ring.
Qed.

Lemma gather_ok n m ptr idx val xN alpha (x : list R) xLD beta (y : list R) yLD : wf_cs n m ptr idx val ->
  (0 <= xN)%Z -> fits xN m xLD (zlen x) -> fits xN n yLD (zlen y) -> strided xN n yLD ->
  exists y', bind (beta_pass (N := N) xN n id_row id_row beta y yLD)
    (rows (N := N) xN n (fun k j y => each_entry ptr j (fun p y =>
       r <- rd idx p ;; v <- rd val p ;; xv <- rd x (r + k * xLD) ;; accum (N := N) alpha y (j + k * yLD) v xv) y)) = Ok y' /\
    updated xN n (addr yLD) y y' (snapB zero beta) (fun k j => snapA zero alpha * mv m (ent ptr idx val j) (vec x xLD k)).
Proof.
  intros WF HxN Fx Fy Sy. eapply (product eps zero infty xN n id_row id_row (fun j => j)); auto.
  - apply WF.
  - now apply strided_distinct.
  - intros k j Hk Hj. now apply fits_in with xN n.
  - apply adds_rows. intros k j Hk Hj. apply (adds_entry n m ptr idx val WF); [assumption|]. intros p Hp.
    destruct (pos_in n m ptr idx val WF j p Hj Hp) as (_ & _ & _ & Hr).
    eapply adds_ext_m.
    + intros s Hs. rewrite (rd_idx n m ptr idx val WF j) by assumption. cbn [bind]. rcar. rewrite (rd_val n m ptr idx val WF j) by assumption. cbn [bind].
      rewrite (rd_ok 0) by (now apply fits_in with xN m). cbn [bind]. reflexivity.
    + apply adds_accum. now apply fits_in with xN n.
  - intros q Hq. cbn beta. apply rsum_ext. intros k Hk. apply rsum_ext. intros j Hj. rewrite rsum_if. destruct (q =? j + k * yLD)%Z; [|reflexivity].
    transitivity (rsum (zn 0%Z ptr j) (zn 0%Z ptr (j + 1)) (fun p => snapA zero alpha * (zn 0 val p * vec x xLD k (zn 0%Z idx p)))); [reflexivity|].
    unfold rsum at 1. rewrite lsum_scal. f_equal. apply (ent_sum n m ptr idx val WF j (vec x xLD k) Hj).
Qed.

(** The statement: y' = alpha*M*x + beta*y for the nr x nc matrix M. *)
Definition is_times (nr nc : Z) (M : Z -> Z -> R) (run : Z -> R -> list R -> Z -> R -> list R -> Z -> res (list R)) : Prop :=
  forall xN alpha (x : list R) xLD beta (y : list R) yLD, (0 <= xN)%Z -> regular zero alpha -> regular zero beta ->
  fits xN nc xLD (zlen x) -> fits xN nr yLD (zlen y) -> strided xN nr yLD ->
  exists y', run xN alpha x xLD beta y yLD = Ok y' /\
    updated xN nr (addr yLD) y y' beta (fun k i => alpha * mv nc (M i) (vec x xLD k)).

Lemma drop_snap xN n ad y y' alpha beta S : regular zero alpha -> regular zero beta ->
  updated xN n ad y y' (snapB zero beta) (fun k j => snapA zero alpha * S k j) -> updated xN n ad y y' beta (fun k j => alpha * S k j).
Proof. intros Ra Rb. now rewrite snapA_regular, snapB_regular. Qed.

Theorem C22_sparse_times : forall A, wf_sparse A -> is_times (s_nr A) (s_nc A) (smat A) (s_times (N := N) A).
Proof.
  intros A WF xN alpha x xLD beta y yLD HxN Ra Rb Fx Fy Sy.
  destruct (scatter_ok (s_nc A) (s_nr A) _ _ _ xN alpha x xLD beta y yLD WF HxN Fx Fy Sy) as (y' & E & U).
  exists y'. split; [exact E|]. now apply drop_snap in U.
Qed.
Theorem C22_sparse_transTimes : forall A, wf_sparse A -> is_times (s_nc A) (s_nr A) (fun j i => smat A i j) (s_transTimes (N := N) A).
Proof.
  intros A WF xN alpha x xLD beta y yLD HxN Ra Rb Fx Fy Sy.
  destruct (gather_ok (s_nc A) (s_nr A) _ _ _ xN alpha x xLD beta y yLD WF HxN Fx Fy Sy) as (y' & E & U).
  exists y'. split; [exact E|]. now apply drop_snap in U.
Qed.
Theorem C22_sprow_times : forall A, wf_sprow A -> is_times (r_nr A) (r_nc A) (rmat A) (r_times (N := N) A).
Proof.
  intros A WF xN alpha x xLD beta y yLD HxN Ra Rb Fx Fy Sy.
  destruct (gather_ok (r_nr A) (r_nc A) _ _ _ xN alpha x xLD beta y yLD WF HxN Fx Fy Sy) as (y' & E & U).
  exists y'. split; [exact E|]. now apply drop_snap in U.
Qed.
Theorem C22_sprow_transTimes : forall A, wf_sprow A -> is_times (r_nc A) (r_nr A) (fun j i => rmat A i j) (r_transTimes (N := N) A).
Proof.
  intros A WF xN alpha x xLD beta y yLD HxN Ra Rb Fx Fy Sy.
  destruct (scatter_ok (r_nr A) (r_nc A) _ _ _ xN alpha x xLD beta y yLD WF HxN Fx Fy Sy) as (y' & E & U).
  exists y'. split; [exact E|]. now apply drop_snap in U.
Qed.

(** ** C23: adjoints *)
Lemma adjoint_of nr nc M t tt (x u y0 z0 : list R) : is_times nr nc M t -> is_times nc nr (fun j i => M i j) tt -> zero < 1 -> (0 <= nr)%Z -> (0 <= nc)%Z ->
  (nc <= zlen x)%Z -> (nr <= zlen u)%Z -> (nr <= zlen y0)%Z -> (nc <= zlen z0)%Z ->
  exists Ax Atu, t 1%Z 1 x nc 0 y0 nr = Ok Ax /\ tt 1%Z 1 u nr 0 z0 nc = Ok Atu /\
    rsum 0 nr (fun i => zn 0 u i * zn 0 Ax i) = rsum 0 nc (fun j => zn 0 Atu j * zn 0 x j).
Proof.
  intros Ht Htt Hz H1 H2 Lx Lu Ly Lz. destruct (regular_01 zero) as (R0 & R1 & _); [lra|].
  destruct (Ht 1%Z 1 x nc 0 y0 nr ltac:(lia) R1 R0) as (Ax & E1 & _ & V1 & _); try (split; lia); try (left; lia).
  destruct (Htt 1%Z 1 u nr 0 z0 nc ltac:(lia) R1 R0) as (Atu & E2 & _ & V2 & _); try (split; lia); try (left; lia).
  exists Ax, Atu. split; [exact E1|]. split; [exact E2|].
  transitivity (rsum 0 nr (fun i => zn 0 u i * mv nc (M i) (zn 0 x))).
  { apply rsum_ext. intros i Hi. specialize (V1 0%Z i ltac:(lia) Hi). unfold addr in V1. replace (i + 0 * nr)%Z with i in V1 by lia.
    rewrite V1. rewrite Rmult_0_l, Rplus_0_l, Rmult_1_l. f_equal. apply rsum_ext. intros j Hj. unfold vec. do 2 f_equal. lia. }
  rewrite mv_adjoint. apply rsum_ext. intros j Hj. specialize (V2 0%Z j ltac:(lia) Hj). unfold addr in V2.
  replace (j + 0 * nc)%Z with j in V2 by lia. rewrite V2. rewrite Rmult_0_l, Rplus_0_l, Rmult_1_l. f_equal.
  apply rsum_ext. intros i Hi. unfold vec. do 2 f_equal. lia.
Qed.

Theorem C23_sparse : forall A (x u y0 z0 : list R), wf_sparse A -> zero < 1 ->
  (s_nc A <= zlen x)%Z -> (s_nr A <= zlen u)%Z -> (s_nr A <= zlen y0)%Z -> (s_nc A <= zlen z0)%Z ->
  exists Ax Atu, s_times (N := N) A 1 1 x (s_nc A) 0 y0 (s_nr A) = Ok Ax /\ s_transTimes (N := N) A 1 1 u (s_nr A) 0 z0 (s_nc A) = Ok Atu /\
    rsum 0 (s_nr A) (fun i => zn 0 u i * zn 0 Ax i) = rsum 0 (s_nc A) (fun j => zn 0 Atu j * zn 0 x j).
Proof.
  intros A x u y0 z0 WF Hz H1 H2 H3 H4. apply (adjoint_of _ _ (smat A)); auto using C22_sparse_times, C22_sparse_transTimes; apply WF.
Qed.
Theorem C23_sprow : forall A (x u y0 z0 : list R), wf_sprow A -> zero < 1 ->
  (r_nc A <= zlen x)%Z -> (r_nr A <= zlen u)%Z -> (r_nr A <= zlen y0)%Z -> (r_nc A <= zlen z0)%Z ->
  exists Ax Atu, r_times (N := N) A 1 1 x (r_nc A) 0 y0 (r_nr A) = Ok Ax /\ r_transTimes (N := N) A 1 1 u (r_nr A) 0 z0 (r_nc A) = Ok Atu /\
    rsum 0 (r_nr A) (fun i => zn 0 u i * zn 0 Ax i) = rsum 0 (r_nc A) (fun j => zn 0 Atu j * zn 0 x j).
Proof.
  intros A x u y0 z0 WF Hz H1 H2 H3 H4. apply (adjoint_of _ _ (rmat A)); auto using C22_sprow_times, C22_sprow_transTimes; apply WF.
Qed.

(** ** C22: products with selected rows and columns *)

Lemma merge_sum L lo hi xN (E : Z -> Z -> bool) (Q : Z -> bool) al (v : Z -> R) (X : Z -> Z -> R) :
  rsum 0 L (fun c => rsum lo hi (fun p => if E p c then rsum 0 xN (fun k => if Q k then al * (v p * X k c) else 0) else 0)) =
  rsum 0 xN (fun k => if Q k then al * rsum 0 L (fun c => rsum lo hi (fun p => if E p c then v p else 0) * X k c) else 0).
Proof.
  transitivity (rsum 0 L (fun c => rsum 0 xN (fun k => if Q k then al * (rsum lo hi (fun p => if E p c then v p else 0) * X k c) else 0))).
  - apply rsum_ext. intros c _. transitivity (rsum lo hi (fun p => rsum 0 xN (fun k => if Q k then al * ((if E p c then v p else 0) * X k c) else 0))).
    + apply rsum_ext. intros p _. destruct (E p c); [reflexivity|]. symmetry. apply rsum_0. intros k _. destruct (Q k); [ring|reflexivity].
    + rewrite rsum_swap. apply rsum_ext. intros k _. destruct (Q k); [|apply rsum_0; reflexivity].
      unfold rsum. rewrite lsum_scal, lsum_scal_r. reflexivity.
  - rewrite rsum_swap. apply rsum_ext. intros k _. destruct (Q k); [|apply rsum_0; reflexivity]. unfold rsum. now rewrite lsum_scal.
Qed.

(** SparseMatrixRow, compressed result *)
Theorem C22_sprow_times_idx : forall A irows li icols lc xN alpha (x : list R) xLD beta (y : list R) yLD,
  wf_sprow A -> il_rep irows li -> idx_in li (r_nr A) -> cols_rep icols (r_nc A) lc -> (0 <= xN)%Z ->
  regular zero alpha -> regular zero beta ->
  fits xN (zlen lc) xLD (zlen x) -> fits xN (zlen li) yLD (zlen y) -> strided xN (zlen li) yLD ->
  exists y', r_times_idx (N := N) A irows icols xN alpha x xLD beta y yLD true = Ok y' /\
    updated xN (zlen li) (addr yLD) y y' beta
      (fun k j => alpha * mv (zlen lc) (fun i => rmat A (zn 0%Z li j) (zn 0%Z lc i)) (vec x xLD k)).
Proof.
  intros A irows li icols lc xN alpha x xLD beta y yLD WF Rr Ir Rc HxN Ra Rb Fx Fy Sy. unfold r_times_idx.
  rewrite (rep_len _ _ Rr).
  match goal with |- exists y', (bind _ ?mm) = _ /\ _ => assert (P : exists y', bind (beta_pass (N := N) xN (zlen li) id_row id_row beta y yLD) mm = Ok y' /\
     updated xN (zlen li) (fun k j => (j + k * yLD)%Z) y y' (snapB zero beta)
       (fun k j => snapA zero alpha * mv (zlen lc) (fun i => rmat A (zn 0%Z li j) (zn 0%Z lc i)) (vec x xLD k))) end.
  2:{ destruct P as (y' & E & U). exists y'. split; [exact E|]. now apply drop_snap in U. }
  eapply (product eps zero infty xN (zlen li) id_row id_row (fun j => j)); auto using zlen_nonneg.
  - now apply strided_distinct.
  - intros k j Hk Hj. now apply fits_in with xN (zlen li).
  - rewrite <- (rep_len _ _ Rr).
    apply (adds_sel (zlen y) (fun j q => rsum 0 xN (fun k => if (q =? j + k * yLD)%Z then
        snapA zero alpha * mv (zlen lc) (fun i => rmat A (zn 0%Z li j) (zn 0%Z lc i)) (vec x xLD k) else 0))
      (fun srt row y => match icols with
    | None => each_entry (r_jr A) row (fun j y => for_up 0 xN (fun k y =>
        c <- rd (r_ic A) j ;; v <- rd (r_val A) j ;; xv <- rd x (k * xLD + c) ;;
        accum (N := N) alpha y (k * yLD + srt) v xv) y) y
    | Some ic =>
        lo <- rd (r_jr A) row ;; hi <- rd (r_jr A) (row + 1) ;;
        st <- merge (r_ic A) lo hi ic
          (fun j p y => for_up 0 xN (fun k y =>
            v <- rd (r_val A) j ;; xv <- rd x (k * xLD + p) ;; accum (N := N) alpha y (k * yLD + srt) v xv) y)
          (fun _ y => Ok y) y ;;
        let '(_, _, y) := st in Ok y
    end) irows li Rr).
    intros j Hj. pose proof (Ir j Hj) as Hr. set (row := zn 0%Z li j) in *.
    destruct icols as [ic|]; cbn [cols_rep] in Rc.
    + destruct Rc as [Rc Ic].
      eapply adds_ext_m; [intros s Hs; rewrite !(rd_ptr _ _ _ _ _ WF) by lia; cbn [bind]; reflexivity|].
      eapply adds_ext.
      { apply (adds_merge _ _ _ _ _ WF row (zn 0%Z (r_jr A) row) ic lc (zlen y)
          (fun p c y => for_up 0 xN (fun k y => v <- rd (r_val A) p ;; xv <- rd x (k * xLD + c) ;; accum (N := N) alpha y (k * yLD + j) v xv) y)
          (fun p c q => rsum 0 xN (fun k => if (q =? k * yLD + j)%Z then snapA zero alpha * (zn 0 (r_val A) p * vec x xLD k c) else 0))); auto.
        { pose proof (cs_mono _ _ _ _ _ WF row Hr). lia. }
        intros p c Hp Hc Ep. apply adds_for. intros k Hk. pose proof (fits_in xN (zlen li) yLD (zlen y) k j Fy Hk Hj).
        eapply adds_ext_m.
        - intros s Hs. rcar. rewrite (rd_val _ _ _ _ _ WF row) by assumption. cbn [bind].
          rewrite (Z.add_comm (k * xLD)). rewrite (rd_ok 0) by (now apply fits_in with xN (zlen lc)). cbn [bind]. reflexivity.
        - apply adds_accum. lia. }
      intros q Hq. cbn beta. rewrite (merge_sum (zlen lc) _ _ xN (fun p c => (zn 0%Z (r_ic A) p =? zn 0%Z lc c)%Z)).
      apply rsum_ext. intros k Hk. now rewrite (Z.add_comm (k * yLD)).
    + subst lc. rewrite zlen_zseq in *. rewrite Z.max_r, Z.sub_0_r in * by (destruct WF; lia).
      eapply adds_ext.
      { apply (adds_entry _ _ _ _ _ WF row (zlen y) _ (fun p q => rsum 0 xN (fun k => if (q =? k * yLD + j)%Z then
          snapA zero alpha * (zn 0 (r_val A) p * vec x xLD k (zn 0%Z (r_ic A) p)) else 0))); auto.
        intros p Hp. apply adds_for. intros k Hk. pose proof (fits_in xN (zlen li) yLD (zlen y) k j Fy Hk Hj).
        destruct (pos_in _ _ _ _ _ WF row p Hr Hp) as (_ & _ & _ & Hc).
        eapply adds_ext_m.
        - intros s Hs. rewrite (rd_idx _ _ _ _ _ WF row) by assumption. cbn [bind]. rcar. rewrite (rd_val _ _ _ _ _ WF row) by assumption. cbn [bind].
          rewrite (Z.add_comm (k * xLD)). rewrite (rd_ok 0) by (now apply fits_in with xN (r_nc A)). cbn [bind]. reflexivity.
        - apply adds_accum. lia. }
      intros q Hq. cbn beta. rewrite rsum_swap. apply rsum_ext. intros k Hk. rewrite (Z.add_comm (k * yLD)). rewrite rsum_if.
      destruct (q =? j + k * yLD)%Z; [|reflexivity]. unfold rsum at 1. rewrite lsum_scal. f_equal.
      etransitivity; [apply (ent_sum _ _ _ _ _ WF row (vec x xLD k) Hr)|]. apply rsum_ext. intros i Hi. rewrite zn_zseq by lia. reflexivity.
  - intros q Hq. cbn beta. rewrite rsum_swap. reflexivity.
Qed.

Theorem C22_sprow_transTimes_idx : forall A irows li icols lc xN alpha (x : list R) xLD beta (y : list R) yLD,
  wf_sprow A -> il_rep irows li -> idx_in li (r_nr A) -> il_rep icols lc -> (0 <= xN)%Z ->
  regular zero alpha -> regular zero beta ->
  fits xN (zlen li) xLD (zlen x) -> fits xN (zlen lc) yLD (zlen y) -> strided xN (zlen lc) yLD ->
  exists y', r_transTimes_idx (N := N) A irows icols xN alpha x xLD beta y yLD = Ok y' /\
    updated xN (zlen lc) (addr yLD) y y' beta
      (fun k j => alpha * mv (zlen li) (fun i => rmat A (zn 0%Z li i) (zn 0%Z lc j)) (vec x xLD k)).
Proof.
  intros A irows li icols lc xN alpha x xLD beta y yLD WF Rr Ir Rc HxN Ra Rb Fx Fy Sy. unfold r_transTimes_idx.
  rewrite (rep_len _ _ Rc).
  match goal with |- exists y', (bind _ ?mm) = _ /\ _ => assert (P : exists y', bind (beta_pass (N := N) xN (zlen lc) id_row id_row beta y yLD) mm = Ok y' /\
     updated xN (zlen lc) (fun k j => (j + k * yLD)%Z) y y' (snapB zero beta)
       (fun k j => snapA zero alpha * mv (zlen li) (fun i => rmat A (zn 0%Z li i) (zn 0%Z lc j)) (vec x xLD k))) end.
  2:{ destruct P as (y' & E & U). exists y'. split; [exact E|]. now apply drop_snap in U. }
  eapply (product eps zero infty xN (zlen lc) id_row id_row (fun j => j)); auto using zlen_nonneg.
  - now apply strided_distinct.
  - intros k j Hk Hj. now apply fits_in with xN (zlen lc).
  - apply (adds_sel (zlen y) (fun i q => rsum 0 (zlen lc) (fun c => rsum 0 xN (fun k => if (q =? c + k * yLD)%Z then
        snapA zero alpha * (rmat A (zn 0%Z li i) (zn 0%Z lc c) * vec x xLD k i) else 0)))
      (fun srt row y => lo <- rd (r_jr A) row ;; hi <- rd (r_jr A) (row + 1) ;;
    st <- merge (r_ic A) lo hi icols
      (fun j p y => for_up 0 xN (fun k y =>
        v <- rd (r_val A) j ;; xv <- rd x (k * xLD + srt) ;; accum (N := N) alpha y (k * yLD + p) v xv) y)
      (fun _ y => Ok y) y ;;
    let '(_, _, y) := st in Ok y) irows li Rr).
    intros i Hi. pose proof (Ir i Hi) as Hr. set (row := zn 0%Z li i) in *.
    eapply adds_ext_m; [intros s Hs; rewrite !(rd_ptr _ _ _ _ _ WF) by lia; cbn [bind]; reflexivity|].
    eapply adds_ext.
    { apply (adds_merge _ _ _ _ _ WF row (zn 0%Z (r_jr A) row) icols lc (zlen y)
          (fun p c y => for_up 0 xN (fun k y => v <- rd (r_val A) p ;; xv <- rd x (k * xLD + i) ;; accum (N := N) alpha y (k * yLD + c) v xv) y)
          (fun p c q => rsum 0 xN (fun k => if (q =? k * yLD + c)%Z then snapA zero alpha * (zn 0 (r_val A) p * vec x xLD k i) else 0))); auto.
        { pose proof (cs_mono _ _ _ _ _ WF row Hr). lia. }
        intros p c Hp Hc Ep. apply adds_for. intros k Hk. pose proof (fits_in xN (zlen lc) yLD (zlen y) k c Fy Hk Hc).
        eapply adds_ext_m.
        - intros s Hs. rcar. rewrite (rd_val _ _ _ _ _ WF row) by assumption. cbn [bind].
          rewrite (Z.add_comm (k * xLD)). rewrite (rd_ok 0) by (now apply fits_in with xN (zlen li)). cbn [bind]. reflexivity.
        - apply adds_accum. lia. }
    intros q Hq. cbn beta. apply rsum_ext. intros c Hc.
    transitivity (rsum 0 1 (fun _ => rsum (zn 0%Z (r_jr A) row) (zn 0%Z (r_jr A) (row + 1)) (fun p => if (zn 0%Z (r_ic A) p =? zn 0%Z lc c)%Z then
       rsum 0 xN (fun k => if (q =? k * yLD + c)%Z then snapA zero alpha * (zn 0 (r_val A) p * vec x xLD k i) else 0) else 0))); [now rewrite rsum01|].
    rewrite (merge_sum 1 _ _ xN (fun p _ => (zn 0%Z (r_ic A) p =? zn 0%Z lc c)%Z) (fun k => (q =? k * yLD + c)%Z) _ _ (fun k _ => vec x xLD k i)).
    apply rsum_ext. intros k Hk. rewrite (Z.add_comm (k * yLD)). rewrite rsum01. reflexivity.
  - intros q Hq. cbn beta. etransitivity; [apply rsum_ext; intros i Hi; rewrite rsum_swap; reflexivity|]. rewrite rsum_swap. apply rsum_ext. intros k Hk.
    rewrite rsum_swap. apply rsum_ext. intros c Hc. rewrite rsum_if. destruct (q =? c + k * yLD)%Z; [|reflexivity].
    unfold mv, rsum. now rewrite lsum_scal.
Qed.

(** Right-hand side entries of magnitude at most ZERO are zero: SparseMatrix skips
    columns whose factors are negligible. *)
Definition no_negligible (xN n : Z) (x : list R) (xLD : Z) : Prop :=
  forall k i, (0 <= k < xN)%Z -> (0 <= i < n)%Z -> Rabs (vec x xLD k i) <= zero -> vec x xLD k i = 0.

Lemma ytmp_col_adds A xN (x : list R) xLD col j n : wf_sparse A -> (0 <= j < s_nc A)%Z -> (0 <= col < n)%Z -> (0 <= xN)%Z ->
  fits xN n xLD (zlen x) -> no_negligible xN n x xLD ->
  adds (s_ytmp_col (N := N) A xN x xLD col j) (xN * s_nr A)
    (fun q => rsum 0 xN (fun k => rsum 0 (s_nr A) (fun r => if (q =? r + k * s_nr A)%Z then smat A r j * vec x xLD k col else 0))).
Proof.
  intros WF Hj Hc HxN Fx NN. pose proof (cs_m _ _ _ _ _ WF) as Hm. unfold s_ytmp_col. destruct (Z.eqb_spec xN 1) as [->|H1].
  - assert (Ex : vec x xLD 0 col = zn 0 x col) by (unfold vec; f_equal; lia).
    eapply adds_ext_m; [intros s Hs; rcar; rewrite (rd_ok 0) by (pose proof (fits_in 1 n xLD (zlen x) 0 col Fx ltac:(lia) Hc); lia); cbn [bind]; reflexivity|].
    rnum. destruct (Rleb_spec (Rabs (zn 0 x col)) zero) as [L|L].
    + eapply adds_ext; [apply adds_id|]. intros q _. cbn beta. rewrite rsum01. symmetry. apply rsum_0. intros r Hr.
      rewrite (NN 0%Z col ltac:(lia) Hc) by now rewrite Ex. destruct (q =? _)%Z; lra.
    + eapply adds_ext.
      { apply (adds_entry _ _ _ _ _ WF j _ _ (fun p q => if (q =? zn 0%Z (s_ir A) p)%Z then zn 0 (s_val A) p * zn 0 x col else 0)); auto.
        intros p Hp. destruct (pos_in _ _ _ _ _ WF j p Hj Hp) as (_ & _ & _ & Hr). apply adds_at; [lia|]. intros s Hs.
        rewrite (rd_idx _ _ _ _ _ WF j) by assumption. cbn [bind]. rcar. rewrite (rd_val _ _ _ _ _ WF j) by assumption. cbn [bind].
        rewrite (rd_ok 0) by lia. cbn [bind]. now rewrite wr_ok by lia. }
      intros q _. cbn beta. rewrite rsum01.
      transitivity (rsum 0 (s_nr A) (fun r => smat A r j * (if (q =? r)%Z then zn 0 x col else 0))).
      * unfold smat. rewrite <- (ent_sum _ _ _ _ _ WF j (fun r => if (q =? r)%Z then zn 0 x col else 0) Hj). apply rsum_ext. intros p Hp.
        destruct (q =? zn 0%Z (s_ir A) p)%Z; ring.
      * apply rsum_ext. intros r Hr. rewrite Ex. replace (r + 0 * s_nr A)%Z with r by lia. destruct (q =? r)%Z; ring.
  - assert (EM : exists xmax, for_up 0 xN (fun k xmax => xv <- rd x (k * xLD + col) ;; Ok (getMax (N := N) xmax (@nabs N xv))) (0:R) = Ok xmax /\
       0 <= xmax /\ forall k, (0 <= k < xN)%Z -> Rabs (vec x xLD k col) <= xmax).
    { assert (W : wp (for_up 0 xN (fun k xmax => xv <- rd x (k * xLD + col) ;; Ok (getMax (N := N) xmax (@nabs N xv))) (0:R))
        (fun xmax => 0 <= xmax /\ forall k, (0 <= k < xN)%Z -> Rabs (vec x xLD k col) <= xmax)).
      { apply wp_for_up with (I := fun i xmax => 0 <= xmax /\ forall k, (0 <= k < i)%Z -> Rabs (vec x xLD k col) <= xmax); auto.
        - split; [lra|]. intros; lia.
        - intros i s Hi [I1 I2]. rewrite Z.add_comm. rewrite (rd_ok 0) by (now apply fits_in with xN n). cbn [bind wp]. fold (vec x xLD i col). rnum.
          pose proof (Rabs_pos (vec x xLD i col)); destruct (Rltb_spec (Rabs (vec x xLD i col)) s) as [L|L]; (split; [lra|]); intros k Hk;
            (destruct (Z.eq_dec k i) as [->|]; [lra|]); specialize (I2 k ltac:(lia)); lra. }
      apply wp_inv in W as (v & E & H). exists v. auto. }
    destruct EM as (xmax & EM & X0 & XM).
    eapply adds_ext_m; [intros s Hs; rcar; change (@n0 N) with 0; rewrite EM; cbn [bind]; reflexivity|].
    rnum. destruct (Rleb_spec (Rabs xmax) zero) as [L|L].
    + eapply adds_ext; [apply adds_id|]. intros q _. cbn beta. symmetry. apply rsum_0. intros k Hk. apply rsum_0. intros r Hr.
      rewrite (NN k col Hk Hc). { destruct (q =? _)%Z; lra. } rewrite Rabs_right in L by lra. specialize (XM k Hk). lra.
    + eapply adds_ext.
      { apply (adds_entry _ _ _ _ _ WF j _ _ (fun p q => rsum 0 xN (fun k => if (q =? k * s_nr A + zn 0%Z (s_ir A) p)%Z then zn 0 (s_val A) p * vec x xLD k col else 0))); auto.
        intros p Hp. destruct (pos_in _ _ _ _ _ WF j p Hj Hp) as (_ & _ & _ & Hr). apply adds_for. intros k Hk.
        assert ((k + 1) * s_nr A <= xN * s_nr A)%Z by (apply Z.mul_le_mono_nonneg_r; lia).
        assert (0 <= k * s_nr A)%Z by (apply Z.mul_nonneg_nonneg; lia).
        apply adds_at; [lia|]. intros s Hs.
        rewrite (rd_idx _ _ _ _ _ WF j) by assumption. cbn [bind]. rcar. rewrite (rd_val _ _ _ _ _ WF j) by assumption. cbn [bind].
        rewrite (Z.add_comm (k * xLD)). rewrite (rd_ok 0) by (now apply fits_in with xN n). cbn [bind].
        rewrite (rd_ok 0) by lia. cbn [bind]. now rewrite wr_ok by lia. }
      intros q _. cbn beta. rewrite rsum_swap. apply rsum_ext. intros k Hk.
      transitivity (rsum 0 (s_nr A) (fun r => smat A r j * (if (q =? k * s_nr A + r)%Z then vec x xLD k col else 0))).
      * unfold smat. rewrite <- (ent_sum _ _ _ _ _ WF j (fun r => if (q =? k * s_nr A + r)%Z then vec x xLD k col else 0) Hj). apply rsum_ext. intros p Hp.
        destruct (q =? k * s_nr A + zn 0%Z (s_ir A) p)%Z; ring.
      * apply rsum_ext. intros r Hr. rewrite (Z.add_comm r). destruct (q =? k * s_nr A + r)%Z; ring.
Qed.

(** ytmp = A(:,icols)*x *)
Lemma ytmp_ok A icols lc xN (x : list R) xLD : wf_sparse A -> cols_rep icols (s_nc A) lc -> (0 <= xN)%Z ->
  (icols = None -> xN = 1%Z \/ (s_nc A <= 1)%Z) ->
  fits xN (zlen lc) xLD (zlen x) -> no_negligible xN (zlen lc) x xLD ->
  exists t, s_ytmp (N := N) A icols xN x xLD = Ok t /\ zlen t = (xN * s_nr A)%Z /\
    forall k r, (0 <= k < xN)%Z -> (0 <= r < s_nr A)%Z -> zn 0 t (r + k * s_nr A) = mv (zlen lc) (fun c => smat A r (zn 0%Z lc c)) (vec x xLD k).
Proof.
  intros WF Rc HxN HN Fx NN. pose proof (cs_m _ _ _ _ _ WF) as Hm. unfold s_ytmp. rcar. change (@n0 N) with 0.
  assert (0 <= xN * s_nr A)%Z by (apply Z.mul_nonneg_nonneg; lia).
  assert (LZ : zlen (repeat 0 (Z.to_nat (xN * s_nr A))) = (xN * s_nr A)%Z) by (rewrite zlen_repeat; lia).
  assert (FIN : forall m, adds m (xN * s_nr A) (fun q => rsum 0 (zlen lc) (fun c => rsum 0 xN (fun k => rsum 0 (s_nr A) (fun r =>
      if (q =? r + k * s_nr A)%Z then smat A r (zn 0%Z lc c) * vec x xLD k c else 0)))) ->
    exists t, m (repeat 0 (Z.to_nat (xN * s_nr A))) = Ok t /\ zlen t = (xN * s_nr A)%Z /\
    forall k r, (0 <= k < xN)%Z -> (0 <= r < s_nr A)%Z -> zn 0 t (r + k * s_nr A) = mv (zlen lc) (fun c => smat A r (zn 0%Z lc c)) (vec x xLD k)).
  { intros m Am. destruct (Am _ LZ) as (t & E & Lt & V). exists t. split; [exact E|]. split; [assumption|]. intros k r Hk Hr.
    assert ((k + 1) * s_nr A <= xN * s_nr A)%Z by (apply Z.mul_le_mono_nonneg_r; lia).
    assert (0 <= k * s_nr A)%Z by (apply Z.mul_nonneg_nonneg; lia).
    rewrite V by lia. rewrite zn_repeat by lia. rewrite Rplus_0_l. apply rsum_ext. intros c Hc.
    apply (rows_hit xN (s_nr A) (fun k r => (r + k * s_nr A)%Z) (fun k r => smat A r (zn 0%Z lc c) * vec x xLD k c)); auto.
    apply (distinct_strided xN (s_nr A) (s_nr A) (fun j => j) (s_nr A)); auto. right. lia. }
  destruct icols as [ic|]; cbn [cols_rep] in Rc.
  - destruct Rc as [Rc Ic]. apply FIN.
    apply (adds_sel _ (fun c q => rsum 0 xN (fun k => rsum 0 (s_nr A) (fun r => if (q =? r + k * s_nr A)%Z then smat A r (zn 0%Z lc c) * vec x xLD k c else 0)))
      (fun col j ytmp => s_ytmp_col (N := N) A xN x xLD col j ytmp) ic lc Rc).
    intros c Hc. apply (ytmp_col_adds A xN x xLD c (zn 0%Z lc c) (zlen lc)); auto.
  - assert (ES : negb (xN =? 1)%Z && (1 <? s_nc A)%Z = false).
    { destruct (HN eq_refl) as [-> | L]; [reflexivity|]. destruct (Z.ltb_spec 1 (s_nc A)); [lia|]. apply andb_false_r. }
    rewrite ES. apply FIN. subst lc. rewrite zlen_zseq in *. rewrite Z.max_r, Z.sub_0_r in * by (destruct WF; lia).
    eapply adds_ext; [apply adds_for; intros c Hc; apply (ytmp_col_adds A xN x xLD c c (s_nc A)); auto|].
    intros q _. cbn beta. apply rsum_ext. intros c Hc. rewrite zn_zseq by lia. reflexivity.
Qed.

(** SparseMatrix: compressed result for every beta, uncompressed for beta = 0. *)
Theorem C22_sparse_times_idx : forall A irows li icols lc xN alpha (x : list R) xLD beta (y : list R) yLD (yCompr : bool),
  let t j := if yCompr then j else zn 0%Z li j in
  let m := if yCompr then zlen li else s_nr A in
  wf_sparse A -> il_rep irows li -> idx_in li (s_nr A) -> cols_rep icols (s_nc A) lc -> (0 <= xN)%Z ->
  (icols = None -> xN = 1%Z \/ (s_nc A <= 1)%Z) -> (yCompr = true \/ beta = 0) ->
  regular zero alpha -> regular zero beta -> no_negligible xN (zlen lc) x xLD ->
  fits xN (zlen lc) xLD (zlen x) -> fits xN m yLD (zlen y) -> strided xN m yLD ->
  exists y', s_times_idx (N := N) A irows icols xN alpha x xLD beta y yLD yCompr = Ok y' /\
    updated xN (zlen li) (fun k j => addr yLD k (t j)) y y' beta
      (fun k j => alpha * mv (zlen lc) (fun i => smat A (zn 0%Z li j) (zn 0%Z lc i)) (vec x xLD k)).
Proof.
  intros A irows li icols lc xN alpha x xLD beta y yLD yCompr t m WF Rr Ir Rc HxN HN Hb Ra Rb NN Fx Fy Sy.
  pose proof (cs_m _ _ _ _ _ WF) as Hm. pose proof (zlen_nonneg li) as Hli.
  assert (T : forall j, (0 <= j < zlen li)%Z -> (0 <= t j < m)%Z) by (subst t m; destruct yCompr; auto).
  assert (Tg : forall j, (0 <= j < zlen li)%Z -> (if yCompr then id_row else num_row irows) j = Ok (t j)).
  { intros j Hj. subst t. destruct yCompr; [reflexivity|]. now apply rd_number. }
  assert (D : distinct xN (zlen li) (fun k j => (t j + k * yLD)%Z)).
  { apply distinct_strided with m; auto. subst t. destruct yCompr; [auto|]. now apply li_inj with irows. }
  assert (B : forall k j, (0 <= k < xN)%Z -> (0 <= j < zlen li)%Z -> (0 <= t j + k * yLD < zlen y)%Z).
  { intros k j Hk Hj. apply fits_in with xN m; auto. }
  unfold s_times_idx. rewrite (rep_len _ _ Rr). rnum.
  destruct (Rleb_spec (Rabs (alpha - 0)) zero) as [L0|L0].
  { assert (alpha = 0) by (apply Ra; auto). subst alpha.
    destruct (beta_pass_spec eps zero infty xN (zlen li) (if yCompr then id_row else num_row irows) (if yCompr then id_row else num_row irows) t beta y yLD) as (y' & E & L & V & U); auto.
    exists y'. split; [exact E|]. split; [assumption|]. split; [|assumption]. intros k j Hk Hj. unfold addr. rewrite V by assumption.
    rewrite snapB_regular by assumption. lra. }
  destruct (ytmp_ok A icols lc xN x xLD WF Rc HxN HN Fx NN) as (w & E & Lw & V). rcar. rewrite E. cbn [bind].
  assert (G : forall k j, (0 <= k < xN)%Z -> (0 <= j < zlen li)%Z ->
     (n <- rd (il_number irows) j ;; rd w (n + k * s_nr A)) = Ok (mv (zlen lc) (fun i => smat A (zn 0%Z li j) (zn 0%Z lc i)) (vec x xLD k))).
  { intros k j Hk Hj. rewrite (rd_number irows li) by assumption. cbn [bind]. pose proof (Ir j Hj).
    assert ((k + 1) * s_nr A <= xN * s_nr A)%Z by (apply Z.mul_le_mono_nonneg_r; lia).
    assert (0 <= k * s_nr A)%Z by (apply Z.mul_nonneg_nonneg; lia).
    rewrite (rd_ok 0) by lia. now rewrite V. }
  match goal with |- exists y', ?mm = Ok y' /\ _ => set (MM := mm) end.
  destruct (rows_map xN (zlen li) (fun k j => (t j + k * yLD)%Z) (fun k j y =>
    w0 <- (n <- rd (il_number irows) j ;; rd w (n + k * s_nr A)) ;; t <- (if yCompr then id_row else num_row irows) j ;;
    if Rleb (Rabs beta) zero then wr y (t + k * yLD) (alpha * w0)
    else if Rleb (Rabs (beta - 1)) zero then
      v <- rd y (j + k * yLD) ;; wr y (t + k * yLD) (if yCompr then v + alpha * w0 else alpha * w0 + v)
    else if Rleb (Rabs (beta - - (1))) zero then
      v <- rd y (j + k * yLD) ;; wr y (t + k * yLD) (alpha * w0 - v)
    else
      v <- rd y (j + k * yLD) ;; wr y (t + k * yLD) (alpha * w0 + beta * v))
    (fun k j v => beta * v + alpha * mv (zlen lc) (fun i => smat A (zn 0%Z li j) (zn 0%Z lc i)) (vec x xLD k)) y) as (y' & E' & L' & V' & U'); auto.
  - intros k j s Hk Hj Hs. specialize (B k j Hk Hj). rewrite G, Tg by assumption. cbn [bind].
    destruct (Rleb_spec (Rabs beta) zero) as [Lz|Lz].
    + assert (beta = 0) by (apply Rb; [auto|now rewrite Rminus_0_r]). subst beta. rewrite wr_ok by lia. do 2 f_equal. ring.
    + assert (Ej : (j + k * yLD = t j + k * yLD)%Z).
      { subst t. destruct Hb as [-> | ->]; [reflexivity|]. exfalso. apply Lz. now rewrite Rabs_R0. }
      rewrite !Ej. rewrite !(rd_ok 0) by lia. cbn [bind].
      destruct (Rleb_spec (Rabs (beta - 1)) zero) as [L1|L1]; [|destruct (Rleb_spec (Rabs (beta - - (1))) zero) as [Lm|Lm]].
      * assert (beta = 1) by (apply Rb; auto). subst beta. rewrite wr_ok by lia. do 2 f_equal. destruct yCompr; ring.
      * assert (beta = - (1)) by (apply Rb; auto). subst beta. rewrite wr_ok by lia. do 2 f_equal. ring.
      * rewrite wr_ok by lia. do 2 f_equal. ring.
  - exists y'. split; [exact E'|]. split; [assumption|]. split; [|assumption]. exact V'.
Qed.

Theorem C22_sparse_transTimes_idx : forall A irows li icols lc xN alpha (x : list R) xLD beta (y : list R) yLD,
  wf_sparse A -> il_rep irows li -> idx_in li (s_nr A) -> il_rep icols lc -> idx_in lc (s_nc A) -> (0 <= xN)%Z ->
  regular zero alpha -> regular zero beta ->
  fits xN (zlen li) xLD (zlen x) -> fits xN (zlen lc) yLD (zlen y) -> strided xN (zlen lc) yLD ->
  exists y', s_transTimes_idx (N := N) A irows icols xN alpha x xLD beta y yLD = Ok y' /\
    updated xN (zlen lc) (addr yLD) y y' beta
      (fun k j => alpha * mv (zlen li) (fun i => smat A (zn 0%Z li i) (zn 0%Z lc j)) (vec x xLD k)).
Proof.
  intros A irows li icols lc xN alpha x xLD beta y yLD WF Rr Ir Rc Ic HxN Ra Rb Fx Fy Sy. unfold s_transTimes_idx.
  pose proof (cs_m _ _ _ _ _ WF) as Hm. pose proof (zlen_nonneg li) as Hli.
  rewrite (rep_len _ _ Rc). rnum.
  match goal with |- exists y', (bind _ ?mm) = _ /\ _ => assert (P : exists y', bind (beta_pass (N := N) xN (zlen lc) id_row id_row beta y yLD) mm = Ok y' /\
     updated xN (zlen lc) (fun k j => (j + k * yLD)%Z) y y' (snapB zero beta)
       (fun k j => alpha * mv (zlen li) (fun i => smat A (zn 0%Z li i) (zn 0%Z lc j)) (vec x xLD k))) end.
  2:{ destruct P as (y' & E & U). exists y'. split; [exact E|]. now rewrite snapB_regular in U. }
  eapply (product eps zero infty xN (zlen lc) id_row id_row (fun j => j)); auto using zlen_nonneg.
  - now apply strided_distinct.
  - intros k j Hk Hj. now apply fits_in with xN (zlen lc).
  - instantiate (1 := fun q => rsum 0 xN (fun k => rsum 0 (zlen lc) (fun j => if (q =? j + k * yLD)%Z then
        alpha * mv (zlen li) (fun i => smat A (zn 0%Z li i) (zn 0%Z lc j)) (vec x xLD k) else 0))).
    destruct (Rleb_spec (Rabs (alpha - 0)) zero) as [L0|L0].
    { assert (alpha = 0) by (apply Ra; auto). subst alpha. eapply adds_ext; [apply adds_id|]. intros q _. cbn beta. symmetry.
      apply rsum_0. intros k _. apply rsum_0. intros j _. destruct (_ =? _)%Z; lra. }
    apply adds_for. intros k Hk.
    assert (XT : exists xtmp, for_up 0 (il_length irows) (fun i xtmp => n <- rd (il_number irows) i ;; xv <- rd x (k * xLD + i) ;; wr xtmp n xv) (repeat 0 (Z.to_nat (s_nr A))) = Ok xtmp /\
       zlen xtmp = s_nr A /\ forall r, (0 <= r < s_nr A)%Z -> zn 0 xtmp r = rsum 0 (zlen li) (fun i => if (r =? zn 0%Z li i)%Z then vec x xLD k i else 0)).
    { rewrite (rep_len _ _ Rr).
      assert (W : wp (for_up 0 (zlen li) (fun i xtmp => n <- rd (il_number irows) i ;; xv <- rd x (k * xLD + i) ;; wr xtmp n xv) (repeat 0 (Z.to_nat (s_nr A))))
        (fun xtmp => zlen xtmp = s_nr A /\ forall r, (0 <= r < s_nr A)%Z -> zn 0 xtmp r = rsum 0 (zlen li) (fun i => if (r =? zn 0%Z li i)%Z then vec x xLD k i else 0))).
      { apply wp_for_up with (I := fun i0 xtmp => zlen xtmp = s_nr A /\ forall r, (0 <= r < s_nr A)%Z -> zn 0 xtmp r = rsum 0 i0 (fun i => if (r =? zn 0%Z li i)%Z then vec x xLD k i else 0)); auto.
        - split; [rewrite zlen_repeat; lia|]. intros r Hr. rewrite zn_repeat by lia. rewrite rsum_empty by lia. reflexivity.
        - intros i s Hi [Ls V]. pose proof (Ir i Hi) as Hn. rewrite (rd_number irows li) by assumption. cbn [bind]. rewrite (Z.add_comm (k * xLD)).
          rewrite (rd_ok 0) by (now apply fits_in with xN (zlen li)). cbn [bind]. rewrite wr_ok by lia. cbn [wp]. split; [now rewrite zlen_zupd|].
          intros r Hr. rewrite zn_zupd by lia. rewrite rsum_last by lia. destruct (Z.eqb_spec r (zn 0%Z li i)) as [E|NE].
          + rewrite rsum_0; [unfold vec; lra|]. intros i' Hi'. destruct (Z.eqb_spec r (zn 0%Z li i')) as [E'|]; [|reflexivity].
            exfalso. assert (i = i') by (apply (li_inj irows li Rr); [lia|lia|congruence]). lia.
          + rewrite V by assumption. lra. }
      apply wp_inv in W as (xt & E & H). exists xt. auto. }
    destruct XT as (xtmp & EX & LX & VX).
    eapply adds_ext_m; [intros s Hs; rcar; change (@n0 N) with 0; rewrite EX; cbn [bind]; reflexivity|]. cbn beta.
    rewrite <- (rep_len _ _ Rc).
    eapply adds_ext; [|intros q _; cbn beta; rewrite (rep_len _ _ Rc); reflexivity].
    apply (adds_sel (zlen y) (fun c q => if (q =? c + k * yLD)%Z then alpha * mv (zlen li) (fun i => smat A (zn 0%Z li i) (zn 0%Z lc c)) (vec x xLD k) else 0)
     (fun col j y => yadd <- each_entry (s_jc A) j (fun i yadd =>
        r <- rd (s_ir A) i ;; v <- rd (s_val A) i ;; xv <- rd xtmp r ;; Ok (yadd + v * xv)) 0 ;;
      a <- rd y (col + k * yLD) ;; wr y (col + k * yLD) (a + alpha * yadd)) icols lc Rc).
    intros c Hc. pose proof (Ic c Hc) as Hj. set (j := zn 0%Z lc c) in *. pose proof (fits_in xN (zlen lc) yLD (zlen y) k c Fy Hk Hc).
    assert (EY : each_entry (s_jc A) j (fun i yadd => r <- rd (s_ir A) i ;; v <- rd (s_val A) i ;; xv <- rd xtmp r ;; Ok (yadd + v * xv)) 0 =
       Ok (mv (zlen li) (fun i => smat A (zn 0%Z li i) j) (vec x xLD k))).
    { rewrite (each_entry_eq _ _ _ _ _ WF) by assumption. pose proof (cs_mono _ _ _ _ _ WF j Hj).
      rewrite (sum_loop _ _ _ (fun p => zn 0 (s_val A) p * zn 0 xtmp (zn 0%Z (s_ir A) p))); [|assumption|].
      - f_equal. rewrite Rplus_0_l. etransitivity; [apply (ent_sum _ _ _ _ _ WF j (zn 0 xtmp) Hj)|]. unfold mv.
        transitivity (rsum 0 (s_nr A) (fun r => rsum 0 (zlen li) (fun i => if (r =? zn 0%Z li i)%Z then smat A r j * vec x xLD k i else 0))).
        + apply rsum_ext. intros r Hr. rewrite VX by assumption. unfold rsum. rewrite <- lsum_scal. apply lsum_ext. intros i _. unfold smat.
          destruct (r =? zn 0%Z li i)%Z; ring.
        + rewrite rsum_swap. apply rsum_ext. intros i Hi. rewrite (rsum_delta 0 _ (zn 0%Z li i)); [now rewrite Z.eqb_refl|now apply Ir|].
          intros r Hr Hne. destruct (Z.eqb_spec r (zn 0%Z li i)); [contradiction|reflexivity].
      - intros p s Hp. destruct (pos_in _ _ _ _ _ WF j p Hj Hp) as (_ & _ & _ & Hr).
        rewrite (rd_idx _ _ _ _ _ WF j) by assumption. cbn [bind]. rewrite (rd_val _ _ _ _ _ WF j) by assumption. cbn [bind].
        rewrite (rd_ok 0) by lia. reflexivity. }
    apply adds_at; [assumption|]. intros s Hs. rewrite EY. cbn [bind]. rewrite (rd_ok 0) by lia. cbn [bind]. now rewrite wr_ok by lia.
  - intros q Hq. reflexivity.
Qed.
End Sparse.
