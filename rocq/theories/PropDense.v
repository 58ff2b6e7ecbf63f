(** Properties C18, C19, C20 and the dense parts of C23-C26: the dense matrix
    classes compute the stated products and extractions. *)
From Verif Require Import Base Types Num Indexlist IndexlistProofs RSum Loops Utils PropUtils Matrices MatLib.
Local Open Scope R_scope.

(** ** Specification: what the arrays represent *)

(** entry (i,j) of a dense matrix stored row by row *)
Definition dmat (A : denseM R) (i j : Z) : R := zn 0 (d_val A) (i * d_ld A + j).
Definition wf_dense (A : denseM R) : Prop :=
  (0 <= d_nr A)%Z /\ (0 <= d_nc A <= d_ld A)%Z /\ ((0 < d_nr A)%Z -> ((d_nr A - 1) * d_ld A + d_nc A <= zlen (d_val A))%Z).

(** an n x xN array stored column by column fits into L elements *)
Definition fits (xN n ld L : Z) : Prop :=
  (0 <= ld)%Z /\ ((0 < xN)%Z -> (0 < n)%Z -> ((xN - 1) * ld + n <= L)%Z).
(** entry i of column k *)
Definition vec (x : list R) (ld : Z) (k i : Z) : R := zn 0 x (i + k * ld).
(** address of entry j of column k *)
Definition addr (ld : Z) (k j : Z) : Z := (j + k * ld)%Z.

Lemma fits_in xN n ld L k j : fits xN n ld L -> (0 <= k < xN)%Z -> (0 <= j < n)%Z -> (0 <= j + k * ld < L)%Z.
Proof.
  intros [Hl H] Hk Hj. specialize (H ltac:(lia) ltac:(lia)).
  assert (k * ld <= (xN - 1) * ld)%Z by (apply Z.mul_le_mono_nonneg_r; lia).
  assert (0 <= k * ld)%Z by (apply Z.mul_nonneg_nonneg; lia). lia.
Qed.

Lemma dense_in A i j : wf_dense A -> (0 <= i < d_nr A)%Z -> (0 <= j < d_nc A)%Z -> (0 <= i * d_ld A + j < zlen (d_val A))%Z.
Proof.
  intros (H1 & H2 & H3) Hi Hj. specialize (H3 ltac:(lia)).
  assert (i * d_ld A <= (d_nr A - 1) * d_ld A)%Z by (apply Z.mul_le_mono_nonneg_r; lia).
  assert (0 <= i * d_ld A)%Z by (apply Z.mul_nonneg_nonneg; lia). rcar. lia.
Qed.

Section Dense.
Variables eps zero infty : R.
Hypothesis zero_pos : 0 <= zero.
Notation N := (RNumT eps zero infty).

(** ** C18: products with the whole matrix *)

Lemma strided_distinct xN n ld : strided xN n ld -> distinct xN n (addr ld).
Proof. intros S. apply (distinct_strided xN n ld (fun j => j) n); auto. Qed.

Lemma max_ld xN n ld k j : strided xN n ld -> (0 <= k < xN)%Z -> (0 <= j < n)%Z -> (j + Z.max 1 ld * k = j + k * ld)%Z.
Proof. intros [S|S] Hk Hj; [replace k with 0%Z by lia; lia|]. rewrite Z.max_r by lia. lia. Qed.

Lemma dgemm_ok tr M Nn K alpha (A : list R) LDA (B : list R) LDB beta (C : list R) LDC :
  (0 <= M)%Z -> (0 <= Nn)%Z ->
  (forall i j, (0 <= i < K)%Z -> (0 <= j < M)%Z -> (0 <= (if tr : bool then i + LDA * j else j + LDA * i) < zlen A)%Z) ->
  (forall i k, (0 <= i < K)%Z -> (0 <= k < Nn)%Z -> (0 <= i + LDB * k < zlen B)%Z) ->
  fits Nn M LDC (zlen C) -> strided Nn M LDC ->
  exists C', dgemm (N := N) tr M Nn K alpha A LDA B LDB beta C LDC = Ok C' /\
    updated Nn M (addr LDC) C C' (snapB zero beta)
      (fun k j => snapA zero alpha * rsum 0 K (fun i => zn 0 A (if tr then i + LDA * j else j + LDA * i) * zn 0 B (i + LDB * k))).
Proof.
  intros HM HN HA HB HC HS. unfold dgemm.
  eapply (product eps zero infty Nn M id_row id_row (fun j => j)); auto.
  - now apply strided_distinct.
  - intros k j Hk Hj. now apply fits_in with Nn M.
  - apply adds_rows. intros k j Hk Hj. apply adds_for. intros i Hi.
    eapply adds_ext_m; [|apply adds_accum].
    + intros s Hs. cbn beta. rcar. rewrite (rd_ok 0) by auto. cbn [bind]. rewrite (rd_ok 0) by auto. cbn [bind]. reflexivity.
    + rewrite (Z.mul_comm LDC k). now apply fits_in with Nn M.
  - intros q Hq. cbn beta. apply rsum_ext. intros k Hk. apply rsum_ext. intros j Hj.
    rewrite rsum_if. rewrite (Z.mul_comm LDC k). unfold rsum. rewrite lsum_scal. reflexivity.
Qed.

(** the product of row i with column k of x *)
Definition mv (n : Z) (a : Z -> R) (v : Z -> R) : R := rsum 0 n (fun j => a j * v j).

Lemma times_ok A xN alpha (x : list R) xLD beta (y : list R) yLD :
  wf_dense A -> d_ld A = d_nc A -> (0 <= xN)%Z ->
  fits xN (d_nc A) xLD (zlen x) -> strided xN (d_nc A) xLD -> fits xN (d_nr A) yLD (zlen y) -> strided xN (d_nr A) yLD ->
  exists y', d_times (N := N) A xN alpha x xLD beta y yLD = Ok y' /\
    updated xN (d_nr A) (addr yLD) y y' (snapB zero beta) (fun k i => snapA zero alpha * mv (d_nc A) (dmat A i) (vec x xLD k)).
Proof.
  intros WF Hld HxN Fx Sx Fy Sy. pose proof WF as (W1 & W2 & W3). unfold d_times.
  assert (Fy' : fits xN (d_nr A) (Z.max 1 yLD) (zlen y)).
  { split; [lia|]. intros H1 H2. destruct Fy as [F1 F2], Sy as [S|S]; [|rewrite Z.max_r by lia; auto].
    specialize (F2 H1 H2). replace (xN - 1)%Z with 0%Z in * by lia. lia. }
  assert (Sy' : strided xN (d_nr A) (Z.max 1 yLD)) by (destruct Sy; [left|right]; lia).
  destruct (dgemm_ok true (d_nr A) xN (d_nc A) alpha (d_val A) (Z.max 1 (d_nc A)) x (Z.max 1 xLD) beta y (Z.max 1 yLD)) as (y' & E & U); auto.
  - intros i j Hi Hj. pose proof (dense_in A j i WF ltac:(lia) ltac:(lia)) as Hb. rewrite Z.max_r by lia. rewrite Hld in Hb. rcar. lia.
  - intros i k Hi Hk. rewrite (max_ld xN (d_nc A) xLD k i) by assumption. now apply fits_in with xN (d_nc A).
  - exists y'. split; [exact E|]. destruct U as (U1 & U2 & U3).
    assert (EA : forall k j, (0 <= k < xN)%Z -> (0 <= j < d_nr A)%Z -> addr yLD k j = addr (Z.max 1 yLD) k j).
    { intros k j Hk Hj. unfold addr. rewrite <- (max_ld xN (d_nr A) yLD k j) by assumption. lia. }
    split; [assumption|]. split.
    + intros k j Hk Hj. rewrite EA, U2 by assumption. do 2 f_equal. apply rsum_ext. intros i Hi.
      rewrite (max_ld xN (d_nc A) xLD k i) by assumption. unfold dmat, vec. rewrite Hld, Z.max_r by lia. do 2 f_equal. lia.
    + intros q Hq Hu. apply U3; [assumption|]. intros k j Hk Hj. rewrite <- EA by assumption. now apply Hu.
Qed.

Lemma transTimes_ok A xN alpha (x : list R) xLD beta (y : list R) yLD :
  wf_dense A -> d_ld A = d_nc A -> (0 <= xN)%Z ->
  fits xN (d_nr A) xLD (zlen x) -> strided xN (d_nr A) xLD -> fits xN (d_nc A) yLD (zlen y) -> strided xN (d_nc A) yLD ->
  exists y', d_transTimes (N := N) A xN alpha x xLD beta y yLD = Ok y' /\
    updated xN (d_nc A) (addr yLD) y y' (snapB zero beta) (fun k j => snapA zero alpha * mv (d_nr A) (fun i => dmat A i j) (vec x xLD k)).
Proof.
  intros WF Hld HxN Fx Sx Fy Sy. pose proof WF as (W1 & W2 & W3). unfold d_transTimes.
  assert (Fy' : fits xN (d_nc A) (Z.max 1 yLD) (zlen y)).
  { split; [lia|]. intros H1 H2. destruct Fy as [F1 F2], Sy as [S|S]; [|rewrite Z.max_r by lia; auto].
    specialize (F2 H1 H2). replace (xN - 1)%Z with 0%Z in * by lia. lia. }
  assert (Sy' : strided xN (d_nc A) (Z.max 1 yLD)) by (destruct Sy; [left|right]; lia).
  destruct (dgemm_ok false (d_nc A) xN (d_nr A) alpha (d_val A) (Z.max 1 (d_nc A)) x (Z.max 1 xLD) beta y (Z.max 1 yLD)) as (y' & E & U); auto.
  - lia.
  - intros i j Hi Hj. pose proof (dense_in A i j WF ltac:(lia) ltac:(lia)) as Hb. rewrite Z.max_r by lia. rewrite Hld in Hb. rcar. lia.
  - intros i k Hi Hk. rewrite (max_ld xN (d_nr A) xLD k i) by assumption. now apply fits_in with xN (d_nr A).
  - exists y'. split; [exact E|]. destruct U as (U1 & U2 & U3).
    assert (EA : forall k j, (0 <= k < xN)%Z -> (0 <= j < d_nc A)%Z -> addr yLD k j = addr (Z.max 1 yLD) k j).
    { intros k j Hk Hj. unfold addr. rewrite <- (max_ld xN (d_nc A) yLD k j) by assumption. lia. }
    split; [assumption|]. split.
    + intros k j Hk Hj. rewrite EA, U2 by assumption. do 2 f_equal. apply rsum_ext. intros i Hi.
      rewrite (max_ld xN (d_nr A) xLD k i) by assumption. unfold dmat, vec. rewrite Hld, Z.max_r by lia. do 2 f_equal. lia.
    + intros q Hq Hu. apply U3; [assumption|]. intros k j Hk Hj. rewrite <- EA by assumption. now apply Hu.
Qed.

(** C18 holds for matrices stored without padding (leading dimension = number of
    columns), for scalars that are not within ZERO of 0, 1, -1 unless equal to
    these: y = alpha*A*x + beta*y on the addressed entries, no other entry of y
    is changed and nothing outside the arrays is accessed. *)
Theorem C18_times : forall A xN alpha (x : list R) xLD beta (y : list R) yLD,
  wf_dense A -> d_ld A = d_nc A -> (0 <= xN)%Z -> regular zero alpha -> regular zero beta ->
  fits xN (d_nc A) xLD (zlen x) -> strided xN (d_nc A) xLD -> fits xN (d_nr A) yLD (zlen y) -> strided xN (d_nr A) yLD ->
  exists y', d_times (N := N) A xN alpha x xLD beta y yLD = Ok y' /\
    updated xN (d_nr A) (addr yLD) y y' beta (fun k i => alpha * mv (d_nc A) (dmat A i) (vec x xLD k)).
Proof.
  intros A xN alpha x xLD beta y yLD W Hl Hx Ra Rb Fx Sx Fy Sy.
  destruct (times_ok A xN alpha x xLD beta y yLD W Hl Hx Fx Sx Fy Sy) as (y' & E & U). exists y'. split; [exact E|].
  now rewrite snapA_regular, snapB_regular in U.
Qed.

Theorem C18_transTimes : forall A xN alpha (x : list R) xLD beta (y : list R) yLD,
  wf_dense A -> d_ld A = d_nc A -> (0 <= xN)%Z -> regular zero alpha -> regular zero beta ->
  fits xN (d_nr A) xLD (zlen x) -> strided xN (d_nr A) xLD -> fits xN (d_nc A) yLD (zlen y) -> strided xN (d_nc A) yLD ->
  exists y', d_transTimes (N := N) A xN alpha x xLD beta y yLD = Ok y' /\
    updated xN (d_nc A) (addr yLD) y y' beta (fun k j => alpha * mv (d_nr A) (fun i => dmat A i j) (vec x xLD k)).
Proof.
  intros A xN alpha x xLD beta y yLD W Hl Hx Ra Rb Fx Sx Fy Sy.
  destruct (transTimes_ok A xN alpha x xLD beta y yLD W Hl Hx Fx Sx Fy Sy) as (y' & E & U). exists y'. split; [exact E|].
  now rewrite snapA_regular, snapB_regular in U.
Qed.

(** ** C19, C20: products with selected rows and columns *)

(** the columns selected by an optional index list *)
Definition cols_rep (icols : option indexlist) (nc : Z) (lc : list Z) : Prop :=
  match icols with Some ic => il_rep ic lc /\ idx_in lc nc | None => lc = zseq 0 nc end.

Lemma adds_sel L (g : Z -> Z -> R) (body : Z -> Z -> list R -> res (list R)) s l :
  il_rep s l ->
  (forall c, (0 <= c < zlen l)%Z -> adds (body c (zn 0%Z l c)) L (g c)) ->
  adds (for_up 0 (il_length s) (fun i y => c <- rd (il_iSort s) i ;; v <- rd (il_number s) c ;; body c v y)) L
    (fun q => rsum 0 (zlen l) (fun c => g c q)).
Proof.
  intros Rp H. rewrite (rep_len _ _ Rp).
  eapply adds_ext with (g := fun q => rsum 0 (zlen l) (fun i => g (zn 0%Z (il_iSort s) i) q)).
  - apply adds_for. intros i Hi. eapply adds_ext_m; [|apply H, (rep_rng _ _ Rp); assumption].
    intros y Hy. rewrite (rd_iSort s l) by assumption. cbn [bind].
    rewrite (rd_number s l) by (auto; apply (rep_rng _ _ Rp); assumption). reflexivity.
  - intros q _. apply (rsum_iSort s l (fun i => g i q) Rp).
Qed.

Lemma times_idx_adds A irows li icols lc xN alpha (x : list R) xLD L yLD yCompr :
  let t j := if yCompr : bool then j else zn 0%Z li j in
  wf_dense A -> il_rep irows li -> idx_in li (d_nr A) -> cols_rep icols (d_nc A) lc ->
  (forall k i, (0 <= k < xN)%Z -> (0 <= i < zlen lc)%Z -> (0 <= i + k * xLD < zlen x)%Z) ->
  (forall k j, (0 <= k < xN)%Z -> (0 <= j < zlen li)%Z -> (0 <= t j + k * yLD < L)%Z) ->
  adds (rows (N := N) xN (il_length irows) (fun k j y =>
    s <- rd (il_iSort irows) j ;;
    num <- rd (il_number irows) s ;;
    let iy := ((if yCompr then s else num) + k * yLD)%Z in
    let irA := (num * d_ld A)%Z in
    match icols with
    | None => for_up 0 (d_nc A) (fun i y =>
        v <- rd (d_val A) (irA + i) ;; xv <- rd x (k * xLD + i) ;; accum (N := N) alpha y iy v xv) y
    | Some ic => for_up 0 (il_length ic) (fun i y =>
        col <- rd (il_iSort ic) i ;; c <- rd (il_number ic) col ;;
        v <- rd (d_val A) (irA + c) ;; xv <- rd x (k * xLD + col) ;; accum (N := N) alpha y iy v xv) y
    end)) L
   (fun q => rsum 0 xN (fun k => rsum 0 (zlen li) (fun j => if (q =? t j + k * yLD)%Z
      then snapA zero alpha * mv (zlen lc) (fun i => dmat A (zn 0%Z li j) (zn 0%Z lc i)) (vec x xLD k) else 0))).
Proof.
  intros t WF Rr Ir Rc Fx Fy. unfold rows. apply adds_for. intros k Hk. apply (adds_sel L (fun j q => if (q =? t j + k * yLD)%Z
      then snapA zero alpha * mv (zlen lc) (fun i => dmat A (zn 0%Z li j) (zn 0%Z lc i)) (vec x xLD k) else 0)
      (fun s num y => let iy := ((if yCompr then s else num) + k * yLD)%Z in
    let irA := (num * d_ld A)%Z in
    match icols with
    | None => for_up 0 (d_nc A) (fun i y =>
        v <- rd (d_val A) (irA + i) ;; xv <- rd x (k * xLD + i) ;; accum (N := N) alpha y iy v xv) y
    | Some ic => for_up 0 (il_length ic) (fun i y =>
        col <- rd (il_iSort ic) i ;; c <- rd (il_number ic) col ;;
        v <- rd (d_val A) (irA + c) ;; xv <- rd x (k * xLD + col) ;; accum (N := N) alpha y iy v xv) y
    end) irows li Rr).
  intros j Hj. cbn zeta. change (if yCompr then j else zn 0%Z li j) with (t j).
  apply adds_ext with (g := fun q => rsum 0 (zlen lc) (fun i => if (q =? t j + k * yLD)%Z
      then snapA zero alpha * (dmat A (zn 0%Z li j) (zn 0%Z lc i) * vec x xLD k i) else 0)).
  - destruct icols as [ic|]; cbn [cols_rep] in Rc.
    + destruct Rc as [Rc Ic].
      apply (adds_sel L (fun i q => if (q =? t j + k * yLD)%Z
      then snapA zero alpha * (dmat A (zn 0%Z li j) (zn 0%Z lc i) * vec x xLD k i) else 0)
        (fun col c y => v <- rd (d_val A) (zn 0%Z li j * d_ld A + c) ;; xv <- rd x (k * xLD + col) ;; accum (N := N) alpha y (t j + k * yLD) v xv) ic lc Rc).
      intros i Hi. eapply adds_ext_m; [|apply adds_accum; auto].
      intros y Hy. rcar. rewrite (rd_ok 0) by (apply dense_in; auto). cbn [bind].
      rewrite Z.add_comm. rewrite (rd_ok 0) by auto. cbn [bind]. reflexivity.
    + subst lc. rewrite zlen_zseq in *. rewrite Z.max_r, Z.sub_0_r in * by (destruct WF; lia).
      apply adds_for. intros i Hi. rewrite zn_zseq by lia. eapply adds_ext_m; [|apply adds_accum; auto].
      intros y Hy. rcar. rewrite (rd_ok 0) by (apply dense_in; auto; lia). cbn [bind].
      rewrite (Z.add_comm (k * xLD)). rewrite (rd_ok 0) by (apply Fx; auto; lia). cbn [bind]. reflexivity.
  - intros q _. rewrite rsum_if. destruct (q =? t j + k * yLD)%Z; [|reflexivity]. unfold mv, rsum. now rewrite lsum_scal.
Qed.

Lemma cols_rep_in icols nc lc : (0 <= nc)%Z -> cols_rep icols nc lc -> idx_in lc nc.
Proof.
  destruct icols; cbn [cols_rep]; [now intros _ [_ H]|]. intros Hn ->. intros k Hk. rewrite zlen_zseq in Hk. rewrite zn_zseq; lia.
Qed.

Lemma li_inj s l : il_rep s l -> forall j j', (0 <= j < zlen l)%Z -> (0 <= j' < zlen l)%Z -> zn 0%Z l j = zn 0%Z l j' -> j = j'.
Proof.
  intros Rp j j' Hj Hj' E. apply rep_NoDup in Rp. rewrite (NoDup_nth l 0%Z) in Rp. unfold zn, zlen in *.
  apply Rp in E; lia.
Qed.

Lemma times_idx_ok A irows li icols lc xN alpha (x : list R) xLD beta (y : list R) yLD (yCompr : bool) :
  let t j := if yCompr then j else zn 0%Z li j in
  let m := if yCompr then zlen li else d_nr A in
  wf_dense A -> il_rep irows li -> idx_in li (d_nr A) -> cols_rep icols (d_nc A) lc -> (0 <= xN)%Z ->
  (yCompr = true \/ Rabs (beta - - (1)) > zero \/ Rabs beta <= zero) ->
  fits xN (zlen lc) xLD (zlen x) -> fits xN m yLD (zlen y) -> strided xN m yLD ->
  exists y', d_times_idx (N := N) A irows icols xN alpha x xLD beta y yLD yCompr = Ok y' /\
    updated xN (zlen li) (fun k j => addr yLD k (t j)) y y' (snapB zero beta)
      (fun k j => snapA zero alpha * mv (zlen lc) (fun i => dmat A (zn 0%Z li j) (zn 0%Z lc i)) (vec x xLD k)).
Proof.
  intros t m WF Rr Ir Rc HxN Hb Fx Fy Sy. unfold d_times_idx.
  assert (T : forall j, (0 <= j < zlen li)%Z -> (0 <= t j < m)%Z) by (subst t m; destruct yCompr; auto).
  rewrite (rep_len _ _ Rr).
  eapply (product eps zero infty xN (zlen li) _ id_row t); auto using zlen_nonneg.
  - intros j Hj. subst t. destruct yCompr; [reflexivity|]. now apply rd_number.
  - subst t. destruct Hb as [->|Hb]; auto.
  - apply distinct_strided with m; auto. subst t. destruct yCompr; [auto|]. now apply li_inj with irows.
  - intros k j Hk Hj. apply fits_in with xN m; auto.
  - rewrite <- (rep_len _ _ Rr). apply (times_idx_adds A irows li icols lc xN alpha x xLD (zlen y) yLD yCompr); auto.
    + intros k i Hk Hi. now apply fits_in with xN (zlen lc).
    + intros k j Hk Hj. apply fits_in with xN m; auto. exact (T j Hj).
  - intros q Hq. reflexivity.
Qed.

(** C19: y = alpha*A(rows,cols)*x + beta*y in list order, for every order of the
    index lists and with all columns when there is no column list. *)
Theorem C19_times_compressed : forall A irows li icols lc xN alpha (x : list R) xLD beta (y : list R) yLD,
  wf_dense A -> il_rep irows li -> idx_in li (d_nr A) -> cols_rep icols (d_nc A) lc -> (0 <= xN)%Z ->
  regular zero alpha -> regular zero beta ->
  fits xN (zlen lc) xLD (zlen x) -> fits xN (zlen li) yLD (zlen y) -> strided xN (zlen li) yLD ->
  exists y', d_times_idx (N := N) A irows icols xN alpha x xLD beta y yLD true = Ok y' /\
    updated xN (zlen li) (addr yLD) y y' beta
      (fun k j => alpha * mv (zlen lc) (fun i => dmat A (zn 0%Z li j) (zn 0%Z lc i)) (vec x xLD k)).
Proof.
  intros A irows li icols lc xN alpha x xLD beta y yLD WF Rr Ir Rc HxN Ra Rb Fx Fy Sy.
  destruct (times_idx_ok A irows li icols lc xN alpha x xLD beta y yLD true WF Rr Ir Rc HxN (or_introl eq_refl) Fx Fy Sy) as (y' & E & U).
  rewrite snapA_regular, snapB_regular in U by assumption. exists y'. split; [exact E|exact U].
Qed.

Theorem C19_transTimes : forall A irows li icols lc xN alpha (x : list R) xLD beta (y : list R) yLD,
  wf_dense A -> il_rep irows li -> idx_in li (d_nr A) -> il_rep icols lc -> idx_in lc (d_nc A) -> (0 <= xN)%Z ->
  regular zero alpha -> regular zero beta ->
  fits xN (zlen li) xLD (zlen x) -> fits xN (zlen lc) yLD (zlen y) -> strided xN (zlen lc) yLD ->
  exists y', d_transTimes_idx (N := N) A irows icols xN alpha x xLD beta y yLD = Ok y' /\
    updated xN (zlen lc) (addr yLD) y y' beta
      (fun k j => alpha * mv (zlen li) (fun i => dmat A (zn 0%Z li i) (zn 0%Z lc j)) (vec x xLD k)).
Proof.
  intros A irows li icols lc xN alpha x xLD beta y yLD WF Rr Ir Rc Ic HxN Ra Rb Fx Fy Sy. unfold d_transTimes_idx.
  assert (P : exists y', bind (beta_pass (N := N) xN (il_length icols) id_row id_row beta y yLD)
    (rows (N := N) xN (il_length irows) (fun k j y =>
    row <- rd (il_iSort irows) j ;;
    for_up 0 (il_length icols) (fun i y =>
      col <- rd (il_iSort icols) i ;;
      r <- rd (il_number irows) row ;; c <- rd (il_number icols) col ;;
      v <- rd (d_val A) (r * d_ld A + c) ;; xv <- rd x (row + k * xLD) ;;
      accum (N := N) alpha y (col + k * yLD) v xv) y)) = Ok y' /\ updated xN (zlen lc) (fun k j => (j + k * yLD)%Z) y y' (snapB zero beta)
       (fun k j => snapA zero alpha * mv (zlen li) (fun i => dmat A (zn 0%Z li i) (zn 0%Z lc j)) (vec x xLD k))).
  2:{ destruct P as (y' & E & U). exists y'. rewrite snapA_regular, snapB_regular in U by assumption. split; [exact E|exact U]. }
  rewrite (rep_len _ _ Rc). eapply (product eps zero infty xN (zlen lc) id_row id_row (fun j => j)); auto using zlen_nonneg.
  - now apply strided_distinct.
  - intros k j Hk Hj. now apply fits_in with xN (zlen lc).
  - unfold rows. apply adds_for. intros k Hk. rewrite (rep_len _ _ Rr).
    apply adds_ext with (g := fun q => rsum 0 (zlen li) (fun i => (fun r => rsum 0 (zlen lc) (fun i => (fun c => if (q =? c + k * yLD)%Z
      then snapA zero alpha * (dmat A (zn 0%Z li r) (zn 0%Z lc c) * vec x xLD k r) else 0) (zn 0%Z (il_iSort icols) i)))
       (zn 0%Z (il_iSort irows) i))).
    + apply adds_for. intros j Hj. pose proof (rep_rng _ _ Rr j Hj) as Hr. set (r := zn 0%Z (il_iSort irows) j) in *.
      eapply adds_ext_m; [intros s Hs; rewrite (rd_iSort irows li) by assumption; cbn [bind]; reflexivity|]. fold r. cbn beta.
      apply adds_for. intros i Hi. pose proof (rep_rng _ _ Rc i Hi) as Hc. set (c := zn 0%Z (il_iSort icols) i) in *.
      eapply adds_ext_m; [|apply adds_accum; apply fits_in with xN (zlen lc); auto].
      intros s Hs. rewrite (rd_iSort icols lc) by assumption. cbn [bind]. fold c.
      rewrite (rd_number irows li), (rd_number icols lc) by assumption. cbn [bind]. rcar. rewrite (rd_ok 0) by (apply dense_in; auto). cbn [bind].
      rewrite (rd_ok 0) by (apply fits_in with xN (zlen li); auto). cbn [bind]. reflexivity.
    + intros q _. rewrite (rsum_iSort irows li (fun r => rsum 0 (zlen lc) (fun i => (fun c => if (q =? c + k * yLD)%Z
      then snapA zero alpha * (dmat A (zn 0%Z li r) (zn 0%Z lc c) * vec x xLD k r) else 0) (zn 0%Z (il_iSort icols) i))) Rr).
      instantiate (1 := fun k q => rsum 0 (zlen lc) (fun j => if (q =? j + k * yLD)%Z then snapA zero alpha * mv (zlen li) (fun i => dmat A (zn 0%Z li i) (zn 0%Z lc j)) (vec x xLD k) else 0)).
      cbn beta. etransitivity; [apply rsum_ext; intros r Hr; apply (rsum_iSort icols lc (fun c => if (q =? c + k * yLD)%Z
      then snapA zero alpha * (dmat A (zn 0%Z li r) (zn 0%Z lc c) * vec x xLD k r) else 0) Rc)|].
      rewrite rsum_swap. apply rsum_ext. intros c Hc. rewrite rsum_if. destruct (q =? c + k * yLD)%Z; [|reflexivity].
      unfold mv, rsum. now rewrite lsum_scal.
  - intros q Hq. reflexivity.
Qed.

(** C20 holds for every beta but -1. *)
Theorem C20_uncompressed : forall A irows li icols lc xN alpha (x : list R) xLD beta (y : list R) yLD,
  wf_dense A -> il_rep irows li -> idx_in li (d_nr A) -> cols_rep icols (d_nc A) lc -> (0 <= xN)%Z ->
  regular zero alpha -> regular zero beta -> zero < 1 -> beta <> - (1) ->
  fits xN (zlen lc) xLD (zlen x) -> fits xN (d_nr A) yLD (zlen y) -> strided xN (d_nr A) yLD ->
  exists y', d_times_idx (N := N) A irows icols xN alpha x xLD beta y yLD false = Ok y' /\
    updated xN (zlen li) (fun k j => addr yLD k (zn 0%Z li j)) y y' beta
      (fun k j => alpha * mv (zlen lc) (fun i => dmat A (zn 0%Z li j) (zn 0%Z lc i)) (vec x xLD k)).
Proof.
  intros A irows li icols lc xN alpha x xLD beta y yLD WF Rr Ir Rc HxN Ra Rb H1 Hb Fx Fy Sy.
  destruct (times_idx_ok A irows li icols lc xN alpha x xLD beta y yLD false WF Rr Ir Rc HxN) as (y' & E & U); auto.
  { right. left. apply Rnot_le_gt. intros Hle. apply Hb. apply Rb; auto. }
  rewrite snapA_regular, snapB_regular in U by assumption. exists y'. split; [exact E|exact U].
Qed.

(** With beta = -1 entry li[j] of y is overwritten with -y[j] instead of -y[li[j]]. *)
Theorem C20_minus_one : forall A irows li icols lc alpha (x : list R) (y : list R) j,
  wf_dense A -> il_rep irows li -> li = [j] -> idx_in li (d_nr A) -> cols_rep icols (d_nc A) lc -> 0 <= zero < 1 ->
  regular zero alpha -> fits 1 (zlen lc) 0 (zlen x) -> (d_nr A <= zlen y)%Z ->
  exists y', d_times_idx (N := N) A irows icols 1 alpha x 0 (- (1)) y 0 false = Ok y' /\
    zn 0 y' j = - zn 0 y 0 + alpha * mv (zlen lc) (fun i => dmat A j (zn 0%Z lc i)) (vec x 0 0).
Proof.
  intros A irows li icols lc alpha x y j WF Rr -> Ir Rc Hz Ra Fx Hy. unfold d_times_idx.
  pose proof (Ir 0%Z ltac:(change (zlen [j]) with 1%Z; lia)) as Hj. change (zn 0%Z [j] 0) with j in Hj.
  assert (Eb : beta_pass (N := N) 1 (il_length irows) (num_row irows) id_row (- (1)) y 0 = Ok (zupd y j (- zn 0 y 0))).
  { rewrite (rep_len _ _ Rr). change (zlen [j]) with 1%Z. unfold beta_pass. rnum.
    destruct (Rleb_spec (Rabs (- (1))) zero) as [L|_]; [rewrite Rabs_left in L; lra|].
    destruct (Rleb_spec (Rabs (- (1) - - (1))) zero) as [_|L]; [|exfalso; apply L; replace (- (1) - - (1)) with 0 by lra; rewrite Rabs_R0; lra].
    unfold rows, for_up. change (Z.to_nat (1 - 0)) with 1%nat. cbn [for_up_n bind].
    unfold num_row. rewrite (rd_number irows [j]) by (auto; change (zlen [j]) with 1%Z; lia). change (zn 0%Z [j] 0) with j. cbn [bind id_row].
    rcar. rewrite (rd_ok 0) by lia. cbn [bind]. rewrite wr_ok by lia. cbn [bind]. do 2 f_equal. lia. }
  rcar. rewrite Eb. cbn [bind].
  destruct (times_idx_adds A irows [j] icols lc 1 alpha x 0 (zlen y) 0 false WF Rr Ir Rc) with (s := zupd y j (- zn 0 y 0)) as (y' & E & L & V).
  - intros k i Hk Hi. apply fits_in with 1%Z (zlen lc); auto.
  - intros k i Hk Hi. change (zlen [j]) with 1%Z in Hi. replace i with 0%Z by lia. change (zn 0%Z [j] 0) with j. lia.
  - apply zlen_zupd.
  - exists y'. split; [exact E|]. rewrite V by lia. rewrite zn_zupd_eq by lia. f_equal.
    change (zlen [j]) with 1%Z. rewrite rsum01, rsum01. change (zn 0%Z [j] 0) with j. replace (j + 0 * 0)%Z with j by lia. rewrite Z.eqb_refl.
    now rewrite snapA_regular.
Qed.

(** ** C24: bilinear forms *)

(** X_a' H X_b over the index set l *)
Definition bil (H : Z -> Z -> R) (l : list Z) (u v : Z -> R) : R :=
  rsum 0 (zlen l) (fun i => u (zn 0%Z l i) * rsum 0 (zlen l) (fun j => H (zn 0%Z l i) (zn 0%Z l j) * v (zn 0%Z l j))).

Lemma adds_at L p v (m : list R -> res (list R)) : (0 <= p < L)%Z ->
  (forall s, zlen s = L -> m s = Ok (zupd s p (zn 0 s p + v))) -> adds m L (fun q => if (q =? p)%Z then v else 0).
Proof.
  intros Hp H s Hs. exists (zupd s p (zn 0 s p + v)). split; [auto|]. split; [now rewrite zlen_zupd|].
  intros q Hq. rewrite zn_zupd by lia. destruct (Z.eqb_spec q p) as [->|]; lra.
Qed.

Theorem C24_dense_bilinear : forall A icols l xN (x : list R) xLD (y : list R) yLD,
  wf_dense A -> il_rep icols l -> idx_in l (d_nr A) -> idx_in l (d_nc A) -> (0 <= xN)%Z ->
  fits xN (d_nc A) xLD (zlen x) -> fits xN xN yLD (zlen y) -> strided xN xN yLD ->
  exists y', d_bilinear (N := N) A icols xN x xLD y yLD = Ok y' /\
    updated xN xN (addr yLD) y y' 0 (fun a b => bil (dmat A) l (vec x xLD a) (vec x xLD b)).
Proof.
  intros A icols l xN x xLD y yLD WF Rp Ir Ic HxN Fx Fy Sy. unfold d_bilinear. rewrite (rep_len _ _ Rp).
  pose proof (zlen_nonneg l) as Hl. set (len := zlen l) in *.
  destruct (rows_map xN xN (addr yLD) (fun ii jj y => wr y (ii * yLD + jj) 0) (fun _ _ _ => 0) y) as (y1 & E1 & L1 & V1 & U1); auto.
  { now apply strided_distinct. }
  { intros k j Hk Hj. now apply fits_in with xN xN. }
  { intros k j s Hk Hj Hs. unfold addr. rewrite (Z.add_comm j). apply wr_ok. rewrite Hs, Z.add_comm. now apply fits_in with xN xN. }
  rcar. change (@n0 (RNumT eps zero infty)) with 0.
  match goal with |- context [bind ?m _] => replace m with (Ok y1) by (symmetry; exact E1) end. cbn [bind].
  assert (LZ : zlen (repeat 0 (Z.to_nat (len * xN))) = (len * xN)%Z).
  { rewrite zlen_repeat. apply Z2Nat.id. apply Z.mul_nonneg_nonneg; lia. }
  assert (AdAx : forall j k, (0 <= j < len)%Z -> (0 <= k < xN)%Z -> (0 <= j + k * len < len * xN)%Z).
  { intros j k Hj Hk. assert (k * len <= (xN - 1) * len)%Z by (apply Z.mul_le_mono_nonneg_r; lia).
    assert (0 <= k * len)%Z by (apply Z.mul_nonneg_nonneg; lia). lia. }
  assert (AAx : adds (for_up 0 len (fun j Ax =>
    nj <- rd (il_number icols) j ;;
    let irA := (nj * d_ld A)%Z in
    for_up 0 len (fun i Ax =>
      ni <- rd (il_number icols) i ;;
      h <- rd (d_val A) (irA + ni) ;;
      for_up 0 xN (fun k Ax =>
        a <- rd Ax (j + k * len) ;; xv <- rd x (k * xLD + ni) ;; wr Ax (j + k * len) (a + h * xv)) Ax) Ax)) (len * xN)
    (fun q => rsum 0 len (fun j => rsum 0 len (fun i => rsum 0 xN (fun k => if (q =? j + k * len)%Z then
       dmat A (zn 0%Z l j) (zn 0%Z l i) * vec x xLD k (zn 0%Z l i) else 0))))).
  { apply adds_for. intros j Hj. eapply adds_ext_m; [intros s Hs; rewrite (rd_number icols l) by assumption; cbn [bind]; reflexivity|].
    cbn beta zeta. apply adds_for. intros i Hi.
    eapply adds_ext_m; [intros s Hs; rewrite (rd_number icols l) by assumption; cbn [bind]; rewrite (rd_ok 0) by (apply dense_in; auto); cbn [bind]; reflexivity|].
    cbn beta zeta. apply adds_for. intros k Hk. apply adds_at; [auto|].
    intros s Hs. rewrite (rd_ok 0) by (rewrite Hs; auto). cbn [bind]. rewrite (rd_ok 0) by (rewrite Z.add_comm; apply fits_in with xN (d_nc A); auto).
    cbn [bind]. rewrite wr_ok by (rewrite Hs; auto). unfold vec, dmat. now rewrite (Z.add_comm (k * xLD)). }
  destruct (AAx _ LZ) as (Ax & EAx & LAx & VAx).
  match goal with |- context [bind ?m _] => replace m with (Ok Ax) by (symmetry; exact EAx) end. cbn [bind].
  assert (VA : forall j k, (0 <= j < len)%Z -> (0 <= k < xN)%Z -> zn 0 Ax (j + k * len) =
    rsum 0 len (fun i => dmat A (zn 0%Z l j) (zn 0%Z l i) * vec x xLD k (zn 0%Z l i))).
  { intros j k Hj Hk. rewrite VAx by (apply AdAx; auto). rewrite zn_repeat by (rewrite Z2Nat.id by (apply Z.mul_nonneg_nonneg; lia); auto).
    rewrite Rplus_0_l. rewrite (rsum_delta 0 len j); [|assumption|].
    - apply rsum_ext. intros i Hi. rewrite (rsum_delta 0 xN k); [now rewrite Z.eqb_refl|assumption|].
      intros k' Hk' Hne. destruct (Z.eqb_spec (j + k * len) (j + k' * len)) as [E|]; [|reflexivity]. exfalso. apply Hne. nia.
    - intros j' Hj' Hne. apply rsum_0. intros i Hi. apply rsum_0. intros k' Hk'.
      destruct (Z.eqb_spec (j + k * len) (j' + k' * len)) as [E|]; [|reflexivity]. exfalso.
      assert (D : distinct xN len (fun k j => (j + k * len)%Z)).
      { apply (distinct_strided xN len len (fun j => j) len); auto. right. lia. }
      apply D in E; auto. destruct E. congruence. }
  assert (AY : adds (for_up 0 len (fun ii y =>
    col <- rd (il_number icols) ii ;;
    rows (N := N) xN xN (fun jj kk y =>
      a <- rd y (kk + jj * yLD) ;; xv <- rd x (col + jj * xLD) ;; ax <- rd Ax (ii + kk * len) ;;
      wr y (kk + jj * yLD) (a + xv * ax)) y)) (zlen y)
    (fun q => rsum 0 len (fun ii => rsum 0 xN (fun jj => rsum 0 xN (fun kk => if (q =? kk + jj * yLD)%Z then
       vec x xLD jj (zn 0%Z l ii) * rsum 0 len (fun i => dmat A (zn 0%Z l ii) (zn 0%Z l i) * vec x xLD kk (zn 0%Z l i)) else 0))))).
  { apply adds_for. intros ii Hii. eapply adds_ext_m; [intros s Hs; rewrite (rd_number icols l) by assumption; cbn [bind]; reflexivity|].
    cbn beta. apply adds_rows. intros jj kk Hjj Hkk. pose proof (fits_in xN xN yLD (zlen y) jj kk Fy Hjj Hkk).
    apply adds_at; [assumption|]. intros s Hs. rewrite (rd_ok 0) by lia. cbn [bind].
    rewrite (rd_ok 0) by (apply fits_in with xN (d_nc A); auto). cbn [bind].
    rewrite (rd_ok 0) by (rewrite LAx; auto). cbn [bind]. rewrite wr_ok by (rcar; lia). rewrite VA by assumption. reflexivity. }
  destruct (AY y1 L1) as (y2 & E2 & L2 & V2).
  exists y2. split; [exact E2|]. split; [assumption|]. split.
  - intros a b Ha Hb. pose proof (fits_in xN xN yLD (zlen y) a b Fy Ha Hb). unfold addr in *.
    rewrite V2 by lia. rewrite V1 by assumption. rewrite Rmult_0_l. f_equal. unfold bil.
    apply rsum_ext. intros ii Hii.
    apply (rows_hit xN xN (addr yLD) (fun jj kk => vec x xLD jj (zn 0%Z l ii) *
      rsum 0 len (fun i => dmat A (zn 0%Z l ii) (zn 0%Z l i) * vec x xLD kk (zn 0%Z l i)))); auto. now apply strided_distinct.
  - intros q Hq Hu. rewrite V2, U1 by assumption. rewrite rsum_0; [lra|]. intros ii Hii.
    apply (rows_miss xN xN (addr yLD) (fun jj kk => vec x xLD jj (zn 0%Z l ii) *
      rsum 0 len (fun i => dmat A (zn 0%Z l ii) (zn 0%Z l i) * vec x xLD kk (zn 0%Z l i)))). assumption.
Qed.

(** the result is symmetric when the matrix is *)
Theorem C24_symmetric : forall H l u v, (forall i j, In i l -> In j l -> H i j = H j i) -> bil H l u v = bil H l v u.
Proof.
  intros H l u v Hs. unfold bil.
  transitivity (rsum 0 (zlen l) (fun i => rsum 0 (zlen l) (fun j => u (zn 0%Z l i) * (H (zn 0%Z l i) (zn 0%Z l j) * v (zn 0%Z l j))))).
  { apply rsum_ext. intros i Hi. unfold rsum. now rewrite lsum_scal. }
  rewrite rsum_swap. apply rsum_ext. intros j Hj. unfold rsum. rewrite <- lsum_scal. apply lsum_ext. intros i Hi.
  apply In_zseq in Hi. rewrite (Hs (zn 0%Z l i) (zn 0%Z l j)) by (apply zn_In; assumption). ring.
Qed.

(** ** C25 (dense): the diagonal *)
Theorem C25_dense : forall A alpha, wf_dense A ->
  exists v, d_addToDiag (N := N) A alpha = Ok (SUCCESSFUL_RETURN, mkDense (d_nr A) (d_nc A) (d_ld A) v) /\ zlen v = zlen (d_val A) /\
    (forall i j, (0 <= i < d_nr A)%Z -> (0 <= j < d_nc A)%Z ->
       dmat (mkDense (d_nr A) (d_nc A) (d_ld A) v) i j = dmat A i j + (if (i =? j)%Z then alpha else 0)) /\
    (forall q, (0 <= q)%Z -> (forall i, (0 <= i < Z.min (d_nr A) (d_nc A))%Z -> q <> (i * d_ld A + i)%Z) -> zn 0 v q = zn 0 (d_val A) q).
Proof.
  intros A alpha WF. unfold d_addToDiag.
  assert (AD : adds (for_up 0 (Z.min (d_nr A) (d_nc A)) (fun i val =>
         a <- rd val (i * (d_ld A + 1)) ;; wr val (i * (d_ld A + 1)) (a + alpha))) (zlen (d_val A))
         (fun q => rsum 0 (Z.min (d_nr A) (d_nc A)) (fun i => if (q =? i * d_ld A + i)%Z then alpha else 0))).
  { apply adds_for. intros i Hi. replace (i * (d_ld A + 1))%Z with (i * d_ld A + i)%Z by lia.
    pose proof (dense_in A i i WF ltac:(lia) ltac:(lia)). apply adds_at; [assumption|].
    intros s Hs. rewrite (rd_ok 0) by lia. cbn [bind]. now rewrite wr_ok by lia. }
  destruct (AD (d_val A) eq_refl) as (v & E & L & V). exists v. rcar.
  match goal with |- context [bind ?m _] => replace m with (Ok v) by (symmetry; exact E) end. cbn [bind].
  split; [reflexivity|]. split; [assumption|]. split.
  - intros i j Hi Hj. pose proof (dense_in A i j WF Hi Hj). unfold dmat. cbn [d_val d_ld]. rewrite V by lia. f_equal.
    destruct WF as (W1 & W2 & W3). destruct (Z.eqb_spec i j) as [<-|Hne].
    + rewrite (rsum_delta 0 _ i); [now rewrite Z.eqb_refl|lia|]. intros i' Hi' Hne.
      destruct (Z.eqb_spec (i * d_ld A + i) (i' * d_ld A + i')) as [E'|]; [|reflexivity]. exfalso. nia.
    + apply rsum_0. intros i' Hi'. destruct (Z.eqb_spec (i * d_ld A + j) (i' * d_ld A + i')) as [E'|]; [|reflexivity]. exfalso.
      assert (D : i = i').
      { destruct (Z.lt_total i i') as [Lt|[Lt|Lt]]; [|assumption|]; exfalso.
        - assert ((i + 1) * d_ld A <= i' * d_ld A)%Z by (apply Z.mul_le_mono_nonneg_r; lia). lia.
        - assert ((i' + 1) * d_ld A <= i * d_ld A)%Z by (apply Z.mul_le_mono_nonneg_r; lia). lia. }
      subst i'. lia.
  - intros q Hq Hu. rewrite V by assumption. rewrite rsum_0; [lra|]. intros i Hi.
    destruct (Z.eqb_spec q (i * d_ld A + i)) as [E'|]; [|reflexivity]. now apply Hu in E'.
Qed.

(** ** C26 (dense): extraction *)

(** y[j] = f j for j < n, y unchanged elsewhere *)
Definition filled (n : Z) (y y' : list R) (f : Z -> R) : Prop :=
  zlen y' = zlen y /\ forall q, (0 <= q)%Z -> zn 0 y' q = if (q <? n)%Z then f q else zn 0 y q.

Lemma filled_loop n (body : Z -> list R -> res (list R)) f (y : list R) : (0 <= n <= zlen y)%Z ->
  (forall j s, (0 <= j < n)%Z -> zlen s = zlen y -> body j s = Ok (zupd s j (f j))) ->
  exists y', for_up 0 n body y = Ok y' /\ filled n y y' f.
Proof.
  intros Hn H. destruct (fill_loop 0 body (fun j _ => f j) 0 0 n y) as (y' & E & L & V); [lia|lia| |].
  - intros j s Hj Hs. rewrite Z.add_0_l. auto.
  - exists y'. split; [exact E|]. split; [assumption|]. intros q Hq. rewrite V by assumption. rewrite !Z.add_0_l, Z.sub_0_r.
    destruct (Z.leb_spec 0 q); [reflexivity|lia].
Qed.

Theorem C26_dense_getRow : forall A r icols lc alpha (row : list R),
  wf_dense A -> (0 <= r < d_nr A)%Z -> cols_rep icols (d_nc A) lc -> (zlen lc <= zlen row)%Z -> regular zero alpha ->
  exists row', d_getRow (N := N) A r icols alpha row = Ok row' /\
    filled (zlen lc) row row' (fun i => alpha * dmat A r (zn 0%Z lc i)).
Proof.
  intros A r icols lc alpha row WF Hr Rc Hl Ra. unfold d_getRow. destruct icols as [ic|]; cbn [cols_rep] in Rc.
  - destruct Rc as [Rc Ic]. rewrite (rep_len _ _ Rc). apply filled_loop; [split; [apply zlen_nonneg|assumption]|].
    intros j s Hj Hs. rewrite (rd_number ic lc) by assumption. cbn [bind]. rcar. rewrite (rd_ok 0) by (apply dense_in; auto). cbn [bind].
    rewrite wr_ok by lia. now rewrite scaled_snap, snapA_regular.
  - subst lc. rewrite zlen_zseq in *. rewrite Z.max_r, Z.sub_0_r in * by (destruct WF; lia). apply filled_loop; [destruct WF; lia|].
    intros j s Hj Hs. rcar. rewrite (rd_ok 0) by (apply dense_in; auto). cbn [bind]. rewrite wr_ok by lia.
    rewrite scaled_snap, snapA_regular, zn_zseq by (auto; lia). now rewrite Z.add_0_l.
Qed.

Theorem C26_dense_getCol : forall A c irows li alpha (col : list R),
  wf_dense A -> (0 <= c < d_nc A)%Z -> il_rep irows li -> idx_in li (d_nr A) -> (zlen li <= zlen col)%Z -> regular zero alpha ->
  exists col', d_getCol (N := N) A c irows alpha col = Ok col' /\
    filled (zlen li) col col' (fun i => alpha * dmat A (zn 0%Z li i) c).
Proof.
  intros A c irows li alpha col WF Hc Rr Ir Hl Ra. unfold d_getCol.
  rewrite (rep_len _ _ Rr). apply filled_loop; [split; [apply zlen_nonneg|assumption]|].
  intros j s Hj Hs. rewrite (rd_number irows li) by assumption. cbn [bind]. rcar. rewrite (rd_ok 0) by (apply dense_in; auto). cbn [bind].
  rewrite wr_ok by lia. now rewrite scaled_snap, snapA_regular.
Qed.

Theorem C26_dense_diag : forall A i, wf_dense A -> (0 <= i < d_nr A)%Z -> (i < d_nc A)%Z -> d_diag (N := N) A i = Ok (dmat A i i).
Proof.
  intros A i WF Hi Hc. unfold d_diag, dmat. rcar. replace (i * (d_ld A + 1))%Z with (i * d_ld A + i)%Z by lia.
  apply rd_ok. apply dense_in; auto. lia.
Qed.

(** isDiag decides whether all off-diagonal entries of a square matrix are at most EPS in magnitude *)
Theorem C26_dense_isDiag : forall A, wf_dense A ->
  exists b, d_isDiag (N := N) A = Ok b /\
    (b = true <-> d_nr A = d_nc A /\ forall i j, (0 <= i < d_nr A)%Z -> (0 <= j < d_nc A)%Z -> i <> j -> Rabs (dmat A i j) <= eps).
Proof.
  intros A WF. unfold d_isDiag. rcar. destruct (Z.eqb_spec (d_nr A) (d_nc A)) as [Hs|Hs]; cbn [negb].
  2:{ exists false. split; [reflexivity|]. split; [discriminate|]. intros [? _]. contradiction. }
  match goal with |- context [bind ?m _] => assert (W : wp m (fun c => match c with
     | Next _ => forall i j, (0 <= i < d_nr A)%Z -> (0 <= j < d_nc A)%Z -> i <> j -> Rabs (dmat A i j) <= eps
     | Brk _ => exists i j, (0 <= i < d_nr A)%Z /\ (0 <= j < d_nc A)%Z /\ i <> j /\ Rabs (dmat A i j) > eps end)) end.
  - apply wp_forb_up with (I := fun k _ => forall i j, (0 <= i < k)%Z -> (0 <= j < k)%Z -> i <> j -> Rabs (dmat A i j) <= eps)
      (J := fun _ => exists i j, (0 <= i < d_nr A)%Z /\ (0 <= j < d_nc A)%Z /\ i <> j /\ Rabs (dmat A i j) > eps).
    + destruct WF. lia.
    + intros i j Hi. lia.
    + intros i _ Hi HI. apply wp_forb_up with
        (I := fun k _ => forall j, (0 <= j < k)%Z -> Rabs (dmat A i j) <= eps /\ Rabs (dmat A j i) <= eps)
        (J := fun _ => exists i j, (0 <= i < d_nr A)%Z /\ (0 <= j < d_nc A)%Z /\ i <> j /\ Rabs (dmat A i j) > eps).
      * lia.
      * intros j Hj. lia.
      * intros j _ Hj HJ. rcar. rewrite (rd_ok 0) by (apply dense_in; auto; lia). cbn [bind]. rnum.
        fold (dmat A i j). destruct (Rltb_spec eps (Rabs (dmat A i j))) as [G|G].
        { cbn [wp]. exists i, j. repeat split; try lia; lra. }
        rewrite (rd_ok 0) by (apply dense_in; auto; lia). cbn [bind].
        fold (dmat A j i). destruct (Rltb_spec eps (Rabs (dmat A j i))) as [G'|G'].
        { cbn [wp]. exists j, i. repeat split; try lia; lra. }
        cbn [wp]. intros j' Hj'. destruct (Z.eq_dec j' j) as [->|]; [split; lra|]. apply HJ. lia.
      * intros _ HJ. cbn. intros i' j' Hi' Hj' Hne.
        destruct (Z.eq_dec i' i) as [->|]; [apply HJ; lia|]. destruct (Z.eq_dec j' i) as [->|]; [apply HJ; lia|]. apply HI; lia.
      * intros e He. exact He.
    + intros _ HI. rewrite Hs in *. exact HI.
    + intros e He. exact He.
  - apply wp_inv in W as (c & E & Hc). rcar. rewrite E. cbn [bind]. destruct c as [u|u]; cbn iota in Hc |- *; [exists true|exists false]; (split; [reflexivity|]).
    + split; [auto|reflexivity].
    + split; [discriminate|]. intros [_ Hall]. destruct Hc as (i & j & Hi & Hj & Hne & G). specialize (Hall i j Hi Hj Hne). lra.
Qed.

Theorem C26_dense_getRowNorm1 : forall A r t, wf_dense A -> (0 <= r < d_nr A)%Z ->
  d_getRowNorm1 (N := N) A r t = Ok (if (t =? 2)%Z then norm2 (d_nc A) (dmat A r) else if (t =? 1)%Z then norm1 (d_nc A) (dmat A r) else - infty).
Proof.
  intros A r t WF Hr. unfold d_getRowNorm1. rcar. pose proof WF as (W1 & W2 & W3).
  assert (0 <= r * d_ld A)%Z by (apply Z.mul_nonneg_nonneg; lia).
  assert (r * d_ld A <= (d_nr A - 1) * d_ld A)%Z by (apply Z.mul_le_mono_nonneg_r; lia).
  rewrite C17_getNorm; [reflexivity|lia|lia|]. specialize (W3 ltac:(lia)). lia.
Qed.

Theorem C26_dense_getRowNorm : forall A (norm : list R) t, wf_dense A -> (d_nr A <= zlen norm)%Z ->
  exists norm', d_getRowNorm (N := N) A norm t = Ok norm' /\
    filled (d_nr A) norm norm' (fun r => if (t =? 2)%Z then norm2 (d_nc A) (dmat A r) else if (t =? 1)%Z then norm1 (d_nc A) (dmat A r) else - infty).
Proof.
  intros A norm t WF Hl. unfold d_getRowNorm. apply filled_loop; [destruct WF; lia|].
  intros r s Hr Hs. pose proof (C26_dense_getRowNorm1 A r t WF Hr) as E. unfold d_getRowNorm1 in E. rcar. rewrite E. cbn [bind]. apply wr_ok. lia.
Qed.

(** ** C23 (dense): transTimes is the adjoint of times *)

Lemma mv_adjoint nr nc (M : Z -> Z -> R) (u v : Z -> R) :
  rsum 0 nr (fun i => u i * mv nc (M i) v) = rsum 0 nc (fun j => mv nr (fun i => M i j) u * v j).
Proof.
  unfold mv. transitivity (rsum 0 nr (fun i => rsum 0 nc (fun j => u i * (M i j * v j)))).
  { apply rsum_ext. intros i _. unfold rsum. now rewrite lsum_scal. }
  rewrite rsum_swap. apply rsum_ext. intros j _. unfold rsum. rewrite <- lsum_scal_r. apply lsum_ext. intros i _. ring.
Qed.

Theorem C23_dense : forall A (x u y0 z0 : list R), wf_dense A -> d_ld A = d_nc A -> zero < 1 ->
  (d_nc A <= zlen x)%Z -> (d_nr A <= zlen u)%Z -> (d_nr A <= zlen y0)%Z -> (d_nc A <= zlen z0)%Z ->
  exists Ax Atu, d_times (N := N) A 1 1 x (d_nc A) 0 y0 (d_nr A) = Ok Ax /\ d_transTimes (N := N) A 1 1 u (d_nr A) 0 z0 (d_nc A) = Ok Atu /\
    rsum 0 (d_nr A) (fun i => zn 0 u i * zn 0 Ax i) = rsum 0 (d_nc A) (fun j => zn 0 Atu j * zn 0 x j).
Proof.
  intros A x u y0 z0 WF Hl Hz Lx Lu Ly Lz. destruct (regular_01 zero) as (R0 & R1 & _); [lra|]. pose proof WF as (W1 & W2 & _).
  destruct (C18_times A 1 1 x (d_nc A) 0 y0 (d_nr A) WF Hl ltac:(lia) R1 R0) as (Ax & E1 & _ & V1 & _); try (split; lia); try (left; lia).
  destruct (C18_transTimes A 1 1 u (d_nr A) 0 z0 (d_nc A) WF Hl ltac:(lia) R1 R0) as (Atu & E2 & _ & V2 & _); try (split; lia); try (left; lia).
  exists Ax, Atu. split; [exact E1|]. split; [exact E2|].
  transitivity (rsum 0 (d_nr A) (fun i => zn 0 u i * mv (d_nc A) (dmat A i) (zn 0 x))).
  { apply rsum_ext. intros i Hi. specialize (V1 0%Z i ltac:(lia) Hi). unfold addr in V1. replace (i + 0 * d_nr A)%Z with i in V1 by lia.
    rewrite V1. rewrite Rmult_0_l, Rplus_0_l, Rmult_1_l. f_equal. apply rsum_ext. intros j Hj. unfold vec. do 2 f_equal. lia. }
  rewrite mv_adjoint. apply rsum_ext. intros j Hj. specialize (V2 0%Z j ltac:(lia) Hj). unfold addr in V2.
  replace (j + 0 * d_nc A)%Z with j in V2 by lia. rewrite V2. rewrite Rmult_0_l, Rplus_0_l, Rmult_1_l. f_equal.
  apply rsum_ext. intros i Hi. unfold vec. do 2 f_equal. lia.
Qed.

(** ** Refutations *)

(** a matrix with one column, stored with leading dimension 2 *)
Definition padded : denseM R := mkDense 2 1 2 [1; 7; 3; 7].

Lemma padded_wf : wf_dense padded.
Proof. unfold wf_dense, padded, zlen. cbn. lia. Qed.

(** C18 fails as soon as the leading dimension exceeds the number of columns: the
    padding is multiplied instead of the second row. *)
Theorem C18_padding_refuted : zero < 1 ->
  ~ (forall A xN alpha (x : list R) xLD beta (y : list R) yLD,
      wf_dense A -> (0 <= xN)%Z -> regular zero alpha -> regular zero beta ->
      fits xN (d_nc A) xLD (zlen x) -> strided xN (d_nc A) xLD -> fits xN (d_nr A) yLD (zlen y) -> strided xN (d_nr A) yLD ->
      exists y', d_times (N := N) A xN alpha x xLD beta y yLD = Ok y' /\
        updated xN (d_nr A) (addr yLD) y y' beta (fun k i => alpha * mv (d_nc A) (dmat A i) (vec x xLD k))).
Proof.
  intros Hz H. destruct (regular_01 zero) as (R0 & R1 & _); [lra|].
  destruct (H padded 1%Z 1 [1] 1%Z 0 [0; 0] 2%Z padded_wf ltac:(lia) R1 R0) as (y' & E & _ & V & _).
  1-4: unfold fits, strided, padded, zlen; cbn; lia.
  specialize (V 0%Z 1%Z ltac:(lia) ltac:(cbn; lia)).
  destruct (dgemm_ok true 2 1 1 1 [1; 7; 3; 7] 1 [1] 1 0 [0; 0] 2) as (y2 & E2 & _ & V2 & _).
  { lia. } { lia. } { intros i j Hi Hj. change (zlen [1; 7; 3; 7]) with 4%Z. lia. } { intros i k Hi Hk. change (zlen [1]) with 1%Z. lia. }
  { unfold fits, zlen. cbn. lia. } { left. lia. }
  assert (y' = y2) by (assert (Ok y' = Ok y2) as [= ->]; [rewrite <- E, <- E2; reflexivity|reflexivity]). subst y2.
  specialize (V2 0%Z 1%Z ltac:(lia) ltac:(lia)). rewrite V in V2. unfold mv in V2. cbn [d_nc padded] in V2. rewrite !rsum01 in V2.
  rewrite snapA_regular, snapB_regular in V2 by assumption. unfold dmat, vec in V2. cbn [d_val d_ld padded] in V2.
  change (zn 0 [1; 7; 3; 7] (1 * 2 + 0)) with 3 in V2. change (zn 0 [1; 7; 3; 7] (0 + 1 * 1)) with 7 in V2.
  change (zn 0 [1] (0 + 0 * 1)) with 1 in V2. change (zn 0 [1] (0 + 1 * 0)) with 1 in V2. lra.
Qed.

(** the index list (1) *)
Definition il1 : indexlist := mkIL [1%Z] [0%Z] 1 1.
Lemma il1_rep : il_rep il1 [1%Z].
Proof.
  split; try reflexivity; cbn [il_length il_phys il1]; change (zlen [1%Z]) with 1%Z; try lia.
  - intros i Hi. replace i with 0%Z by lia. cbn [il1 il_iSort]. change (zn 0%Z [0%Z] 0) with 0%Z. lia.
  - intros k Hk. exists 0%Z. replace k with 0%Z by lia. split; [lia|reflexivity].
Qed.

(** C20 fails for beta = -1. *)
Theorem C20_uncompressed_refuted : zero < 1 ->
  ~ (forall A irows li icols lc xN alpha (x : list R) xLD beta (y : list R) yLD,
      wf_dense A -> il_rep irows li -> idx_in li (d_nr A) -> cols_rep icols (d_nc A) lc -> (0 <= xN)%Z ->
      regular zero alpha -> regular zero beta ->
      fits xN (zlen lc) xLD (zlen x) -> fits xN (d_nr A) yLD (zlen y) -> strided xN (d_nr A) yLD ->
      exists y', d_times_idx (N := N) A irows icols xN alpha x xLD beta y yLD false = Ok y' /\
        updated xN (zlen li) (fun k j => addr yLD k (zn 0%Z li j)) y y' beta
          (fun k j => alpha * mv (zlen lc) (fun i => dmat A (zn 0%Z li j) (zn 0%Z lc i)) (vec x xLD k))).
Proof.
  intros Hz H. destruct (regular_01 zero) as (R0 & R1 & Rm); [lra|].
  assert (WF : wf_dense (mkDense 2 1 1 [0; 0])) by (unfold wf_dense, zlen; cbn; lia).
  assert (I1 : idx_in [1%Z] 2).
  { intros k Hk. change (zlen [1%Z]) with 1%Z in Hk. replace k with 0%Z by lia. change (zn 0%Z [1%Z] 0) with 1%Z. lia. }
  assert (F1 : fits 1 (zlen (zseq 0 1)) 0 (zlen [0])) by (change (zlen (zseq 0 1)) with 1%Z; change (zlen [0]) with 1%Z; split; lia).
  destruct (H (mkDense 2 1 1 [0; 0]) il1 [1%Z] None (zseq 0 1) 1%Z 1 [0] 0%Z (- (1)) [5; 6] 0%Z WF il1_rep I1 eq_refl ltac:(lia) R1 Rm F1) as (y' & E & _ & V & _).
  1-2: unfold fits, strided, zlen; cbn; lia.
  destruct (C20_minus_one (mkDense 2 1 1 [0; 0]) il1 [1%Z] None (zseq 0 1) 1 [0] [5; 6] 1%Z WF il1_rep eq_refl I1 eq_refl ltac:(lra) R1 F1) as (y2 & E2 & V2).
  { change (zlen [5; 6]) with 2%Z. cbn. lia. }
  rewrite E in E2. injection E2 as <-. specialize (V 0%Z 0%Z ltac:(lia) ltac:(change (zlen [1%Z]) with 1%Z; lia)).
  change (addr 0 0 (zn 0%Z [1%Z] 0)) with 1%Z in V. change (zn 0%Z [1%Z] 0) with 1%Z in V. rewrite V in V2.
  change (zn 0 [5; 6] 1) with 6 in V2. change (zn 0 [5; 6] 0) with 5 in V2. lra.
Qed.
End Dense.

(** ** Examples: the hypotheses can be met *)

Notation RX := (RNumT 0 0 1).
Definition ex_A : denseM R := mkDense 2 2 2 [1; 2; 3; 4].
Lemma ex_A_wf : wf_dense ex_A.
Proof. unfold wf_dense, ex_A, zlen. cbn. lia. Qed.

Example C18_example : exists y', d_times (N := RX) ex_A 1 2 [1; 1] 2 3 [1; 0] 2 = Ok y' /\ zn 0 y' 0 = 9 /\ zn 0 y' 1 = 14.
Proof.
  destruct (C18_times 0 0 1 ltac:(lra) ex_A 1 2 [1; 1] 2 3 [1; 0] 2) as (y' & E & _ & V & _).
  1: apply ex_A_wf. 1: reflexivity. 1: lia. 1-2: now apply regular_exact. 1-4: unfold fits, strided, ex_A, zlen; cbn; lia.
  exists y'. split; [exact E|].
  pose proof (V 0%Z 0%Z ltac:(lia) ltac:(cbn; lia)) as V0. pose proof (V 0%Z 1%Z ltac:(lia) ltac:(cbn; lia)) as V1.
  change (addr 2 0 0) with 0%Z in V0. change (addr 2 0 1) with 1%Z in V1. rewrite V0, V1. unfold mv. cbn [d_nc ex_A].
  rewrite !(rsum_first 0 2), !(rsum_first (0 + 1) 2), !rsum_empty by lia. unfold dmat, vec. cbn [d_val d_ld ex_A]. znc. lra.
Qed.

Example C20_example : exists y', d_times_idx (N := RX) ex_A il1 None 1 1 [1; 1] 2 3 [1; 2] 2 false = Ok y' /\ zn 0 y' 0 = 1 /\ zn 0 y' 1 = 13.
Proof.
  destruct (C20_uncompressed 0 0 1 ltac:(lra) ex_A il1 [1%Z] None (zseq 0 2) 1 1 [1; 1] 2 3 [1; 2] 2) as (y' & E & _ & V & U).
  1: apply ex_A_wf. 1: apply il1_rep.
  { intros k Hk. change (zlen [1%Z]) with 1%Z in Hk. replace k with 0%Z by lia. change (zn 0%Z [1%Z] 0) with 1%Z. cbn. lia. }
  1: reflexivity. 1: lia. 1-2: now apply regular_exact. 1-2: lra. 1-3: try change (zlen (zseq 0 2)) with 2%Z; unfold fits, strided, ex_A, zlen; cbn; lia.
  exists y'. split; [exact E|]. split.
  - rewrite U; [reflexivity|lia|]. intros k j Hk Hj. change (zlen [1%Z]) with 1%Z in Hj. replace k with 0%Z by lia. replace j with 0%Z by lia. cbn. discriminate.
  - specialize (V 0%Z 0%Z ltac:(lia) ltac:(change (zlen [1%Z]) with 1%Z; lia)). change (addr 2 0 (zn 0%Z [1%Z] 0)) with 1%Z in V. rewrite V.
    unfold mv. change (zlen (zseq 0 2)) with 2%Z.
    rewrite !(rsum_first 0 2), !(rsum_first (0 + 1) 2), !rsum_empty by lia. unfold dmat, vec. cbn [d_val d_ld ex_A]. znc. lra.
Qed.

(** C19, C23-C26: matrices, lists and vectors meeting the hypotheses *)
Example C19_example : wf_dense ex_A /\ il_rep il1 [1%Z] /\ idx_in [1%Z] (d_nr ex_A) /\ idx_in [1%Z] (d_nc ex_A) /\
  cols_rep (Some il1) (d_nc ex_A) [1%Z] /\ regular 0 2 /\ fits 1 1 1 (zlen [5]) /\ strided 1 1 1 /\ (d_nc ex_A <= zlen [1; 2])%Z.
Proof.
  assert (I : idx_in [1%Z] 2).
  { intros k Hk. change (zlen [1%Z]) with 1%Z in Hk. replace k with 0%Z by lia. change (zn 0%Z [1%Z] 0) with 1%Z. lia. }
  repeat apply conj; auto using ex_A_wf, il1_rep; try (now apply regular_exact); unfold fits, strided, ex_A, zlen; cbn; lia.
Qed.
