(** The products with A that the step direction and the independence tests use,
    and solving with T. *)
From Verif Require Import Base Types Num Options Indexlist IndexlistProofs Loops RSum LinSpec SafeLib SubjectTo SubjectToProofs SubjectToProofs2
  Flipper PropFlipper Matrices MatLib MatSafe CsLib PropDense PropSparse PropSparse2 LinAlg PropLinAlg QProblemB QPBSafe QPBSafe2 QPBX1 QPBX2 QPBX3 QPBX4 QProblem QPX1 QPX2 QPX3 QPX4 QPX5 QPX6 QPX12.
Local Open Scope R_scope.


Section X13.
Variables eps zero infty : R.
Hypothesis zero_0 : zero = 0.
Notation N := (RNumT eps zero infty).
Notation arr := (list R).

Record amat_full (m n : Z) (M : amat N) (Am : Z -> Z -> R) : Prop := {
  af_ok : amat_ok eps zero infty m n M Am;
  af_row : forall r a ic l (row : arr), il_rep ic l -> (forall v, In v l -> (0 <= v < n)%Z) -> (0 <= r < m)%Z -> (zlen l <= zlen row)%Z -> a = n1 \/ a = nm1 (N := N) ->
    exists row', a_getRow (N := N) M r (Some ic) a row = Ok row' /\ zlen row' = zlen row /\
      forall p, (0 <= p < zlen l)%Z -> zn 0 row' p = a * Am r (zn 0%Z l p);
  af_rowN : forall r (row : arr), (0 <= r < m)%Z -> (n <= zlen row)%Z ->
    exists row', a_getRow (N := N) M r None n1 row = Ok row' /\ zlen row' = zlen row /\ forall p, (0 <= p < n)%Z -> zn 0 row' p = Am r p;
  af_times : forall a b (x y : arr) lx ly, (a = n1 \/ a = nm1 (N := N)) -> (b = n0 \/ b = n1 (N := N)) -> (n <= zlen x)%Z -> (m <= zlen y)%Z -> (0 <= lx)%Z -> (0 <= ly)%Z ->
    exists y', a_times (N := N) M 1 a x lx b y ly = Ok y' /\ zlen y' = zlen y /\
      (forall i, (0 <= i < m)%Z -> zn 0 y' i = b * zn 0 y i + a * rsum 0 n (fun j => Am i j * zn 0 x j));
  af_idx : forall ir lr ic lc a b (x y : arr) lx ly, il_rep ir lr -> (forall v, In v lr -> (0 <= v < m)%Z) -> il_rep ic lc -> (forall v, In v lc -> (0 <= v < n)%Z) ->
    (a = n1 \/ a = nm1 (N := N)) -> (b = n0 \/ b = n1 (N := N)) -> (zlen lc <= zlen x)%Z -> (zlen lr <= zlen y)%Z -> (0 <= lx)%Z -> (0 <= ly)%Z ->
    exists y', a_times_idx (N := N) M ir ic 1 a x lx b y ly = Ok y' /\ zlen y' = zlen y /\
      (forall p, (0 <= p < zlen lr)%Z -> zn 0 y' p = b * zn 0 y p + a * rsum 0 (zlen lc) (fun q => Am (zn 0%Z lr p) (zn 0%Z lc q) * zn 0 x q)) /\
      (forall p, (zlen lr <= p)%Z -> zn 0 y' p = zn 0 y p);
  af_tidx : forall ir lr ic lc a b (x y : arr) lx ly, il_rep ir lr -> (forall v, In v lr -> (0 <= v < m)%Z) -> il_rep ic lc -> (forall v, In v lc -> (0 <= v < n)%Z) ->
    (a = n1 \/ a = nm1 (N := N)) -> (b = n0 \/ b = n1 (N := N)) -> (zlen lr <= zlen x)%Z -> (zlen lc <= zlen y)%Z -> (0 <= lx)%Z -> (0 <= ly)%Z ->
    exists y', a_transTimes_idx (N := N) M ir ic 1 a x lx b y ly = Ok y' /\ zlen y' = zlen y /\
      (forall p, (0 <= p < zlen lc)%Z -> zn 0 y' p = b * zn 0 y p + a * rsum 0 (zlen lr) (fun q => Am (zn 0%Z lr q) (zn 0%Z lc p) * zn 0 x q)) /\
      (forall p, (zlen lc <= p)%Z -> zn 0 y' p = zn 0 y p)
}.

Ltac row_of V := intros p Hp; rewrite V by lia.
Lemma dense_amat_full m n A : wf_dense A -> d_nr A = m -> d_nc A = n -> d_ld A = n -> amat_full m n (ADense (N := N) A) (dmat A).
Proof using zero_0.
  intros WF Hr Hc Hl. assert (Hz : 0 <= zero < 1) by lra. assert (Hz' : 0 <= zero) by lra. assert (Hn : (0 <= n)%Z) by (destruct WF; lia). constructor.
  - now apply dense_amat_ok.
  - intros r a ic l row Rp In0 Hr' L Ha. cbn [a_getRow]. rewrite nm1_R in Ha.
    destruct (C26_dense_getRow eps zero infty Hz' A r (Some ic) l a row WF) as (row' & E & L' & V); [lia|split; [exact Rp|apply idx_range; now rewrite Hc]|exact L|apply unit_regular; auto; destruct Ha; auto|].
    exists row'. split; [exact E|]. split; [exact L'|]. intros p Hp. rewrite V by lia. destruct (Z.ltb_spec p (zlen l)); [lra|lia].
  - intros r row Hr' L. cbn [a_getRow].
    destruct (C26_dense_getRow eps zero infty Hz' A r None (zseq 0 n) 1 row WF) as (row' & E & L' & V); [lia|cbn [cols_rep]; now rewrite Hc|rewrite zlen_zseq; lia|apply unit_regular; auto|].
    exists row'. split; [exact E|]. split; [exact L'|]. intros p Hp. rewrite V by lia. rewrite zlen_zseq. destruct (Z.ltb_spec p (Z.max 0 (n - 0))); [|lia]. rewrite zn_zseq by lia. rewrite Z.add_0_l. lra.
  - intros a b x y lx ly Ha Hb Lx Ly Hlx Hly. cbn [a_times]. rewrite nm1_R in Ha.
    destruct (C18_times eps zero infty Hz' A 1 a x lx b y ly WF) as (y' & E & U); try lia.
    1,2: apply unit_regular; auto; destruct Ha, Hb; auto.
    1,3: apply fits1; rewrite ?Hr, ?Hc; lia.
    1,2: apply strided1.
    exists y'. split; [exact E|]. apply updated1 in U as (L & V & _). split; [exact L|]. intros i Hi. rewrite V by lia. f_equal. f_equal.
    unfold mv. rewrite Hc. apply rsum_ext. intros j Hj. unfold vec. now rewrite Z.mul_0_l, Z.add_0_r.
  - intros ir lr ic lc a b x y lx ly Rr Ir Rc Ic Ha Hb Lx Ly Hlx Hly. cbn [a_times_idx]. rewrite nm1_R in Ha.
    destruct (C19_times_compressed eps zero infty Hz' A ir lr (Some ic) lc 1 a x lx b y ly WF Rr) as (y' & E & U); try lia.
    1: apply idx_range; now rewrite Hr.
    1: split; [exact Rc|apply idx_range; now rewrite Hc].
    1,2: apply unit_regular; auto; destruct Ha, Hb; auto.
    1,2: now apply fits1.
    1: apply strided1.
    exists y'. split; [exact E|]. apply updated1 in U as (L & V & U). split; [exact L|]. pose proof (zlen_nonneg lr). split; [|intros p Hp; apply U; lia].
    intros p Hp. rewrite V by lia. f_equal. f_equal. unfold mv. apply rsum_ext. intros j Hj. unfold vec. now rewrite Z.mul_0_l, Z.add_0_r.
  - intros ir lr ic lc a b x y lx ly Rr Ir Rc Ic Ha Hb Lx Ly Hlx Hly. cbn [a_transTimes_idx]. rewrite nm1_R in Ha.
    destruct (C19_transTimes eps zero infty Hz' A ir lr ic lc 1 a x lx b y ly WF Rr) as (y' & E & U); try lia; auto.
    1: apply idx_range; now rewrite Hr.
    1: apply idx_range; now rewrite Hc.
    1,2: apply unit_regular; auto; destruct Ha, Hb; auto.
    1,2: now apply fits1.
    1: apply strided1.
    exists y'. split; [exact E|]. apply updated1 in U as (L & V & U). split; [exact L|]. pose proof (zlen_nonneg lc). split; [|intros p Hp; apply U; lia].
    intros p Hp. rewrite V by lia. f_equal. f_equal. unfold mv. apply rsum_ext. intros j Hj. unfold vec. now rewrite Z.mul_0_l, Z.add_0_r.
Qed.
Lemma sparse_amat_full m n A : wf_sparse A -> s_nr A = m -> s_nc A = n -> amat_full m n (ASparse (N := N) A) (smat A).
Proof using zero_0.
  intros WF Hr Hc. assert (Hz : 0 <= zero < 1) by lra. assert (Hz' : 0 <= zero) by lra. assert (Hn : (0 <= n)%Z) by (pose proof (cs_n _ _ _ _ _ WF); lia). constructor.
  - now apply sparse_amat_ok.
  - intros r a ic l row Rp In0 Hr' L Ha. cbn [a_getRow]. rewrite nm1_R in Ha.
    destruct (C26_sparse_getRow eps zero infty Hz' A r (Some ic) l a row WF) as (row' & E & L' & V); [lia|split; [exact Rp|apply idx_range; now rewrite Hc]|discriminate|exact L|apply unit_regular; auto; destruct Ha; auto|].
    exists row'. split; [exact E|]. split; [exact L'|]. intros p Hp. rewrite V by lia. destruct (Z.ltb_spec p (zlen l)); [lra|lia].
  - intros r row Hr' L. cbn [a_getRow].
    destruct (C26_sparse_getRow eps zero infty Hz' A r None (zseq 0 n) 1 row WF) as (row' & E & L' & V); [lia|cbn [cols_rep]; now rewrite Hc|auto|rewrite zlen_zseq; lia|apply unit_regular; auto|].
    exists row'. split; [exact E|]. split; [exact L'|]. intros p Hp. rewrite V by lia. rewrite zlen_zseq. destruct (Z.ltb_spec p (Z.max 0 (n - 0))); [|lia]. rewrite zn_zseq by lia. rewrite Z.add_0_l. lra.
  - intros a b x y lx ly Ha Hb Lx Ly Hlx Hly. cbn [a_times]. rewrite nm1_R in Ha.
    destruct (C22_sparse_times eps zero infty Hz' A WF 1%Z a x lx b y ly) as (y' & E & U); try lia.
    1,2: apply unit_regular; auto; destruct Ha, Hb; auto.
    1,2: apply fits1; rewrite ?Hr, ?Hc; lia.
    1: apply strided1.
    exists y'. split; [exact E|]. apply updated1 in U as (L & V & _). split; [exact L|]. intros i Hi. rewrite V by lia. f_equal. f_equal.
    unfold mv. rewrite Hc. apply rsum_ext. intros j Hj. unfold vec. now rewrite Z.mul_0_l, Z.add_0_r.
  - intros ir lr ic lc a b x y lx ly Rr Ir Rc Ic Ha Hb Lx Ly Hlx Hly. cbn [a_times_idx]. rewrite nm1_R in Ha.
    destruct (C22_sparse_times_idx eps zero infty Hz' A ir lr (Some ic) lc 1 a x lx b y ly true WF Rr) as (y' & E & U); try lia; try discriminate; auto.
    1: apply idx_range; now rewrite Hr.
    1: split; [exact Rc|apply idx_range; now rewrite Hc].
    1,2: apply unit_regular; auto; destruct Ha, Hb; auto.
    1: { intros k i Hk Hi B. rewrite zero_0 in B. destruct (Req_dec (vec x lx k i) 0) as [|NZ]; auto. apply Rabs_pos_lt in NZ. lra. }
    1,2: now apply fits1.
    1: apply strided1.
    exists y'. split; [exact E|]. apply updated1 in U as (L & V & U). split; [exact L|]. pose proof (zlen_nonneg lr). split; [|intros p Hp; apply U; lia].
    intros p Hp. rewrite V by lia. f_equal. f_equal. unfold mv. apply rsum_ext. intros j Hj'. unfold vec. now rewrite Z.mul_0_l, Z.add_0_r.
  - intros ir lr ic lc a b x y lx ly Rr Ir Rc Ic Ha Hb Lx Ly Hlx Hly. cbn [a_transTimes_idx]. rewrite nm1_R in Ha.
    destruct (C22_sparse_transTimes_idx eps zero infty Hz' A ir lr ic lc 1 a x lx b y ly WF Rr) as (y' & E & U); try lia; auto.
    1: apply idx_range; now rewrite Hr.
    1: apply idx_range; now rewrite Hc.
    1,2: apply unit_regular; auto; destruct Ha, Hb; auto.
    1,2: now apply fits1.
    1: apply strided1.
    exists y'. split; [exact E|]. apply updated1 in U as (L & V & U). split; [exact L|]. pose proof (zlen_nonneg lc). split; [|intros p Hp; apply U; lia].
    intros p Hp. rewrite V by lia. f_equal. f_equal. unfold mv. apply rsum_ext. intros j Hj. unfold vec. now rewrite Z.mul_0_l, Z.add_0_r.
Qed.
Lemma sprow_amat_full m n A : wf_sprow A -> r_nr A = m -> r_nc A = n -> amat_full m n (ASprow (N := N) A) (rmat A).
Proof using zero_0.
  intros WF Hr Hc. assert (Hz : 0 <= zero < 1) by lra. assert (Hz' : 0 <= zero) by lra. assert (Hn : (0 <= n)%Z) by (pose proof (cs_m _ _ _ _ _ WF); lia). constructor.
  - now apply sprow_amat_ok.
  - intros r a ic l row Rp In0 Hr' L Ha. cbn [a_getRow]. rewrite nm1_R in Ha.
    destruct (C26_sprow_getRow eps zero infty Hz' A r (Some ic) l a row WF) as (row' & E & L' & V); [lia|split; [exact Rp|apply idx_range; now rewrite Hc]|exact L|apply unit_regular; auto; destruct Ha; auto|].
    exists row'. split; [exact E|]. split; [exact L'|]. intros p Hp. rewrite V by lia. destruct (Z.ltb_spec p (zlen l)); [lra|lia].
  - intros r row Hr' L. cbn [a_getRow].
    destruct (C26_sprow_getRow eps zero infty Hz' A r None (zseq 0 n) 1 row WF) as (row' & E & L' & V); [lia|cbn [cols_rep]; now rewrite Hc|rewrite zlen_zseq; lia|apply unit_regular; auto|].
    exists row'. split; [exact E|]. split; [exact L'|]. intros p Hp. rewrite V by lia. rewrite zlen_zseq. destruct (Z.ltb_spec p (Z.max 0 (n - 0))); [|lia]. rewrite zn_zseq by lia. rewrite Z.add_0_l. lra.
  - intros a b x y lx ly Ha Hb Lx Ly Hlx Hly. cbn [a_times]. rewrite nm1_R in Ha.
    destruct (C22_sprow_times eps zero infty Hz' A WF 1%Z a x lx b y ly) as (y' & E & U); try lia.
    1,2: apply unit_regular; auto; destruct Ha, Hb; auto.
    1,2: apply fits1; rewrite ?Hr, ?Hc; lia.
    1: apply strided1.
    exists y'. split; [exact E|]. apply updated1 in U as (L & V & _). split; [exact L|]. intros i Hi. rewrite V by lia. f_equal. f_equal.
    unfold mv. rewrite Hc. apply rsum_ext. intros j Hj. unfold vec. now rewrite Z.mul_0_l, Z.add_0_r.
  - intros ir lr ic lc a b x y lx ly Rr Ir Rc Ic Ha Hb Lx Ly Hlx Hly. cbn [a_times_idx]. rewrite nm1_R in Ha.
    destruct (C22_sprow_times_idx eps zero infty Hz' A ir lr (Some ic) lc 1 a x lx b y ly WF Rr) as (y' & E & U); try lia; auto.
    1: apply idx_range; now rewrite Hr.
    1: split; [exact Rc|apply idx_range; now rewrite Hc].
    1,2: apply unit_regular; auto; destruct Ha, Hb; auto.
    1,2: now apply fits1.
    1: apply strided1.
    exists y'. split; [exact E|]. apply updated1 in U as (L & V & U). split; [exact L|]. pose proof (zlen_nonneg lr). split; [|intros p Hp; apply U; lia].
    intros p Hp. rewrite V by lia. f_equal. f_equal. unfold mv. apply rsum_ext. intros j Hj'. unfold vec. now rewrite Z.mul_0_l, Z.add_0_r.
  - intros ir lr ic lc a b x y lx ly Rr Ir Rc Ic Ha Hb Lx Ly Hlx Hly. cbn [a_transTimes_idx]. rewrite nm1_R in Ha.
    destruct (C22_sprow_transTimes_idx eps zero infty Hz' A ir lr ic lc 1 a x lx b y ly WF Rr) as (y' & E & U); try lia; auto.
    1: apply idx_range; now rewrite Hr.
    1,2: apply unit_regular; auto; destruct Ha, Hb; auto.
    1,2: now apply fits1.
    1: apply strided1.
    exists y'. split; [exact E|]. apply updated1 in U as (L & V & U). split; [exact L|]. pose proof (zlen_nonneg lc). split; [|intros p Hp; apply U; lia].
    intros p Hp. rewrite V by lia. f_equal. f_equal. unfold mv. apply rsum_ext. intros j Hj. unfold vec. now rewrite Z.mul_0_l, Z.add_0_r.
Qed.
(** T as a triangle: row i, column q of the last nac columns *)
Definition tt (nac sT : Z) (T : arr) (i q : Z) : R := if (nac - 1 <=? i + q)%Z then te sT T i (sT - nac + q) else 0.

Lemma backsolveT_ok (s : qp N) nac sT (b : arr) tr (a : arr) : pAC s = nac -> p_sizeT s = sT -> zlen (p_T s) = (sT * sT)%Z -> (0 <= nac <= sT)%Z ->
  (nac <= zlen b)%Z -> (nac <= zlen a)%Z -> 0 <= eps ->
  exists r a', backsolveT (N := N) s b tr a = Ok (r, a') /\ zlen a' = zlen a /\
    ((r = SUCCESSFUL_RETURN /\ (forall i, (0 <= i < nac)%Z -> eps < Rabs (te sT (p_T s) i (sT - 1 - i))) /\
      forall i, (0 <= i < nac)%Z -> rsum 0 nac (fun q => (if tr then tt nac sT (p_T s) q i else tt nac sT (p_T s) i q) * zn 0 a' q) = zn 0 b i) \/
     (r = RET_DIV_BY_ZERO /\ exists i, (0 <= i < nac)%Z /\ Rabs (te sT (p_T s) i (sT - 1 - i)) <= eps)).
Proof using.
  intros En Es LT Hn Lb La Pe. unfold backsolveT. rewrite En, Es. destruct (Z.leb_spec nac 0) as [G|G].
  { exists SUCCESSFUL_RETURN, a. split; [reflexivity|]. split; [reflexivity|]. left. split; [reflexivity|]. split; intros; lia. }
  set (T := p_T s) in *. set (Mx := fun i j => if tr then te sT T (nac - 1 - j) (sT - nac + i) else te sT T i (sT - 1 - j)).
  assert (RdM : forall i j, (0 <= j <= i)%Z -> (i < nac)%Z -> rd T (if tr then (nac - 1 - j) * sT + (sT - nac + i) else i * sT + (sT - 1 - j)) = Ok (Mx i j)).
  { intros i j Hj Hi. unfold Mx, te. destruct tr; apply (rd_ok 0); apply te_in; auto; lia. }
  assert (DM : forall i, (0 <= i < nac)%Z -> Mx i i = te sT T (if tr then nac - 1 - i else i) (sT - 1 - (if tr then nac - 1 - i else i))).
  { intros i Hi. unfold Mx. destruct tr; [|reflexivity]. f_equal. lia. }
  assert (W : wp (forb_up 0 nac (fun i (a : arr) => sum <- rd b i ;;
         sum <- for_up 0 i (fun j sum =>
                  t <- rd T (if tr then (nac - 1 - j) * sT + (sT - nac + i) else i * sT + (sT - 1 - j)) ;;
                  v <- rd a (nac - 1 - j)%Z ;; Ok (sum - t * v)) sum ;;
         t <- rd T (if tr then (nac - 1 - i) * sT + (sT - nac + i) else i * sT + (sT - 1 - i)) ;;
         if Rltb eps (Rabs t) then a <- wr a (nac - 1 - i)%Z (sum / t) ;; Ok (Next a) else Ok (Brk a)) a)
    (fun c => match c with
       | Next a' => zlen a' = zlen a /\ (forall i, (0 <= i < nac)%Z -> eps < Rabs (Mx i i)) /\ forall i, (0 <= i < nac)%Z -> rsum 0 (i + 1) (fun j => Mx i j * zn 0 a' (nac - 1 - j)) = zn 0 b i
       | Brk a' => zlen a' = zlen a /\ exists i, (0 <= i < nac)%Z /\ Rabs (Mx i i) <= eps end)).
  { apply wp_forb_up with (I := fun i a' => zlen a' = zlen a /\ (forall k, (0 <= k < i)%Z -> eps < Rabs (Mx k k)) /\ forall k, (0 <= k < i)%Z -> rsum 0 (k + 1) (fun j => Mx k j * zn 0 a' (nac - 1 - j)) = zn 0 b k)
      (J := fun a' => zlen a' = zlen a /\ exists i, (0 <= i < nac)%Z /\ Rabs (Mx i i) <= eps).
    - lia.
    - split; [reflexivity|]. split; intros; lia.
    - intros i a1 Hi (L & D & V). rewrite (rd_ok 0) by lia. cbn [bind].
      rewrite (diff_loop _ _ _ (fun j => Mx i j * zn 0 a1 (nac - 1 - j))); [|lia|].
      2:{ intros j sm Hj. rewrite RdM by lia. cbn [bind]. now rewrite (rd_ok 0) by lia. }
      cbn [bind]. rewrite RdM by lia. cbn [bind]. destruct (Rltb_spec eps (Rabs (Mx i i))) as [H|H].
      + rewrite wr_ok by lia. cbn [wp bind]. split; [now rewrite zlen_zupd|]. split.
        { intros k Hk. destruct (Z.eq_dec k i) as [->|]; [exact H|apply D; lia]. }
        intros k Hk. assert (NZ : Mx i i <> 0) by (intros Z0; rewrite Z0, Rabs_R0 in H; lra). destruct (Z.eq_dec k i) as [->|].
        * rewrite rsum_last by lia. rewrite zn_zupd_eq by lia. replace (i + 1 - 1)%Z with i by lia.
          rewrite (rsum_ext 0 i _ (fun j => Mx i j * zn 0 a1 (nac - 1 - j))) by (intros j Hj; rewrite zn_zupd_ne by lia; reflexivity). field. exact NZ.
        * rewrite <- (V k) by lia. apply rsum_ext. intros j Hj. rewrite zn_zupd_ne by lia. reflexivity.
      + cbn [wp]. split; [exact L|]. exists i. split; [lia|lra].
    - intros a1 H. exact H.
    - intros a1 H. exact H. }
  apply wp_inv in W as (c & E & P). rnum. rcar. rewrite E. cbn [bind]. destruct c as [a'|a'].
  - destruct P as (L & D & V). exists SUCCESSFUL_RETURN, a'. split; [reflexivity|]. split; [exact L|]. left. split; [reflexivity|]. split.
    { intros i Hi. destruct tr.
      - specialize (D (nac - 1 - i)%Z ltac:(lia)). rewrite DM in D by lia. cbn iota in D. now replace (nac - 1 - (nac - 1 - i))%Z with i in D by lia.
      - specialize (D i Hi). now rewrite DM in D by lia. }
    intros i Hi. rewrite <- (V i Hi). symmetry. rewrite (rsum_split 0 (nac - 1 - i) nac) by lia. rewrite (rsum_0 0 (nac - 1 - i)), Rplus_0_l.
    2:{ intros q Hq. unfold tt. destruct tr; [destruct (Z.leb_spec (nac - 1) (q + i))|destruct (Z.leb_spec (nac - 1) (i + q))]; try lia; ring. }
    unfold rsum at 1. rewrite (lsum_perm (zseq 0 (i + 1)) (map (fun q => (nac - 1 - q)%Z) (zseq (nac - 1 - i) nac))).
    + rewrite lsum_map. apply lsum_ext. intros q Hq. apply In_zseq in Hq. replace (nac - 1 - (nac - 1 - q))%Z with q by lia. f_equal. unfold Mx, tt.
      destruct tr; [destruct (Z.leb_spec (nac - 1) (q + i))|destruct (Z.leb_spec (nac - 1) (i + q))]; try lia; f_equal; lia.
    + apply NoDup_Permutation.
      * apply NoDup_zseq.
      * apply FinFun.Injective_map_NoDup; [intros u v; lia|apply NoDup_zseq].
      * intros k. rewrite in_map_iff, In_zseq. split; [intros Hk; exists (nac - 1 - k)%Z; split; [lia|apply In_zseq; lia]|intros (q & <- & Hq); apply In_zseq in Hq; lia].
  - destruct P as (L & i & Hi & H). exists RET_DIV_BY_ZERO, a'. split; [reflexivity|]. split; [exact L|]. right. split; [reflexivity|].
    rewrite DM in H by lia. exists (if tr then nac - 1 - i else i)%Z. split; [destruct tr; lia|exact H].
Qed.
End X13.
