(** C63: what duplicate() and duplicateSym() return.  All statements hold for
    every arithmetic; [j..] are the contents of the freshly allocated arrays. *)
From Verif Require Import Base Types Num Loops SafeLib Matrices.
From Coq Require Import QArith.
Local Open Scope Z_scope.

Section Dup.
Context {N : Num}.
Notation arr := (list N).

Lemma copy_prefix {T} (d : T) n (src dst : list T) : 0 <= n <= zlen src -> n <= zlen dst ->
  exists v, for_up 0 n (fun i a => x <- rd src i ;; wr a i x) dst = Ok v /\ zlen v = zlen dst /\
    forall k, 0 <= k < zlen dst -> zn d v k = if k <? n then zn d src k else zn d dst k.
Proof.
  intros Hs Hd. apply wp_inv. apply wp_for_up with (I := fun i v => zlen v = zlen dst /\
    forall k, 0 <= k < zlen dst -> zn d v k = if k <? i then zn d src k else zn d dst k); [lia| | |auto].
  - split; [reflexivity|]. intros k Hk. destruct (Z.ltb_spec k 0); [lia|reflexivity].
  - intros i v Hi [L V]. rewrite (rd_ok d) by lia. cbn [bind]. rewrite wr_ok by lia. apply wp_ok. split; [now rewrite zlen_zupd|].
    intros k Hk. rewrite zn_zupd by lia. destruct (Z.eqb_spec k i) as [->|].
    + destruct (Z.ltb_spec i (i + 1)); [reflexivity|lia].
    + rewrite V by lia. destruct (Z.ltb_spec k i), (Z.ltb_spec k (i + 1)); try reflexivity; lia.
Qed.

Lemma copy_all {T} n (src dst : list T) : zlen src = n -> zlen dst = n ->
  for_up 0 n (fun i a => x <- rd src i ;; wr a i x) dst = Ok src.
Proof.
  intros Hs Hd. destruct src as [|d src'] eqn:E.
  - subst n. destruct dst; [reflexivity|]. exfalso. unfold zlen in Hd. cbn in Hd. lia.
  - rewrite <- E in *. destruct (copy_prefix d n src dst) as (v & -> & L & V); [unfold zlen in *; lia|lia|].
    f_equal. apply list_ext_zn with (d := d); [congruence|]. intros k Hk. rewrite V by lia. destruct (Z.ltb_spec k n); [reflexivity|lia].
Qed.

(** the entries of a dense matrix in the sense of the class: row i starts at i*leaDim *)
Definition dentry (A : denseM N) (i j : Z) : N := zn n0 (d_val A) (i * d_ld A + j).

(** DenseMatrix and SymDenseMat: same dimensions and entries when rows are stored
    without padding; the storage is new when the original owned its array *)
Theorem C63_dense : forall own (A : denseM N) (j : arr), 0 <= d_nr A -> 0 <= d_nc A -> d_ld A = d_nc A -> d_nr A * d_nc A <= zlen (d_val A) ->
  zlen j = d_nr A * d_nc A ->
  exists B, d_duplicate own A j = Ok B /\ d_nr B = d_nr A /\ d_nc B = d_nc A /\ d_ld B = d_ld A /\
    (own = true -> zlen (d_val B) = d_nr A * d_nc A) /\
    forall r c, 0 <= r < d_nr A -> 0 <= c < d_nc A -> dentry B r c = dentry A r c.
Proof.
  intros own A j Hr Hc Hl Hv Hj. unfold d_duplicate. destruct own.
  - unfold copy_n. destruct (copy_prefix n0 (d_nr A * d_nc A) (d_val A) j) as (v & E & L & V); [nia|lia|].
    rewrite E. cbn [bind]. eexists. split; [reflexivity|]. cbn. repeat split; auto; try lia.
    intros r c Hr' Hc'. unfold dentry. cbn. rewrite Hl. assert (0 <= r * d_nc A + c < d_nr A * d_nc A) by nia.
    rewrite V by lia. destruct (Z.ltb_spec (r * d_nc A + c) (d_nr A * d_nc A)); [reflexivity|lia].
  - eexists. split; [reflexivity|]. cbn. repeat split; auto; [discriminate|]. intros. unfold dentry. cbn. now rewrite Hl.
Qed.

(** with padding (leaDim > nCols) the duplicate is a different matrix *)
Theorem C63_padding_refuted : forall (a b c d p : N), c <> p ->
  let A := mkDense 2 2 3 [a; b; p; c; d; p] in
  forall own j, zlen j = 4 -> exists B, d_duplicate own A j = Ok B /\ dentry B 1 0 <> dentry A 1 0.
Proof.
  intros a b c d p H A own j Hj. subst A. unfold d_duplicate. destruct own; cbn [d_nr d_nc d_val d_ld].
  - unfold copy_n. destruct (copy_prefix n0 (2 * 2) [a; b; p; c; d; p] j) as (v & E & L & V); [unfold zlen; cbn; lia|lia|].
    rewrite E. cbn [bind]. eexists. split; [reflexivity|]. unfold dentry. cbn [d_ld d_val]. rewrite V by lia. intros K. apply H. symmetry. exact K.
  - eexists. split; [reflexivity|]. unfold dentry. intros K. apply H. symmetry. exact K.
Qed.

(** SparseMatrix and SymSparseMat: an equal matrix in new storage *)
Theorem C63_sparse : forall A jjc jir (jval : arr) jjd, 0 <= s_nc A -> zlen (s_jc A) = s_nc A + 1 ->
  zlen (s_ir A) = zn 0 (s_jc A) (s_nc A) -> zlen (s_val A) = zn 0 (s_jc A) (s_nc A) ->
  (forall jd, s_jd A = Some jd -> zlen jd = s_nc A) ->
  zlen jjc = s_nc A + 1 -> zlen jir = zn 0 (s_jc A) (s_nc A) -> zlen jval = zn 0 (s_jc A) (s_nc A) -> zlen jjd = s_nc A ->
  s_duplicate A jjc jir jval jjd = Ok A.
Proof.
  intros A jjc jir jval jjd Hn Hc Hi Hv Hd Ac Ai Av Ad. unfold s_duplicate, copy_z, copy_n. rewrite (rd_ok 0) by lia. cbn [bind].
  rewrite (copy_all _ (s_ir A) jir) by auto. cbn [bind]. rewrite (copy_all _ (s_jc A) jjc) by auto. cbn [bind].
  rewrite (copy_all _ (s_val A) jval) by auto. cbn [bind]. destruct (s_jd A) as [jd|] eqn:E.
  - rewrite (copy_all _ jd jjd) by auto. cbn [bind]. rewrite <- E. now destruct A.
  - cbn [bind]. rewrite <- E. now destruct A.
Qed.

(** SparseMatrixRow copies jr[0..nnz) and ic[0..nCols]: it is defined and faithful
    only when nnz = nRows+1 = nCols+1, undefined as soon as nnz > nRows+1 or
    nnz < nCols+1 *)
Theorem C63_sprow : forall A jjr jic (jval : arr) jjd, 0 <= r_nr A -> zlen (r_jr A) = r_nr A + 1 ->
  zlen (r_ic A) = zn 0 (r_jr A) (r_nr A) -> zlen (r_val A) = zn 0 (r_jr A) (r_nr A) -> r_nc A = r_nr A ->
  (forall jd, r_jd A = Some jd -> zlen jd = r_nr A) ->
  zlen jjr = r_nr A + 1 -> zlen jic = zn 0 (r_jr A) (r_nr A) -> zlen jval = zn 0 (r_jr A) (r_nr A) -> zlen jjd = r_nr A ->
  zn 0 (r_jr A) (r_nr A) = r_nr A + 1 -> r_duplicate A jjr jic jval jjd = Ok A.
Proof.
  intros A jjr jic jval jjd Hn Hc Hi Hv Hq Hd Ac Ai Av Ad Hz. unfold r_duplicate, copy_z, copy_n. rewrite (rd_ok 0) by lia. cbn [bind].
  rewrite (copy_all _ (r_jr A) jjr) by lia. cbn [bind]. rewrite (copy_all _ (r_ic A) jic) by lia. cbn [bind].
  rewrite (copy_all _ (r_val A) jval) by lia. cbn [bind]. destruct (r_jd A) as [jd|] eqn:E.
  - rewrite (copy_all (r_nc A) jd jjd) by (rewrite Hq; auto). cbn [bind]. rewrite <- E. now destruct A.
  - cbn [bind]. rewrite <- E. now destruct A.
Qed.

(** the 1x2 matrix [a b] (nnz = 2): reading ic[2] *)
Theorem C63_sprow_short_refuted : forall (a b : N) jjr jic jval jjd, zlen jjr = 2 -> zlen jic = 2 ->
  r_duplicate (mkSprow 1 2 [0; 2] [0; 1] None [a; b]) jjr jic jval jjd = UB.
Proof.
  intros a b jjr jic jval jjd H1 H2.
  destruct jjr as [|x1 [|x2 [|]]]; try (exfalso; unfold zlen in H1; cbn in H1; lia).
  destruct jic as [|y1 [|y2 [|]]]; try (exfalso; unfold zlen in H2; cbn in H2; lia). reflexivity.
Qed.
(** the dense 2x2 matrix (nnz = 4): reading jr[3] *)
Theorem C63_sprow_long_refuted : forall (a b c d : N) jjr jic jval jjd, zlen jjr = 3 ->
  r_duplicate (mkSprow 2 2 [0; 2; 4] [0; 1; 0; 1] None [a; b; c; d]) jjr jic jval jjd = UB.
Proof.
  intros a b c d jjr jic jval jjd H1.
  destruct jjr as [|x1 [|x2 [|x3 [|]]]]; try (exfalso; unfold zlen in H1; cbn in H1; lia). reflexivity.
Qed.
End Dup.

(** the hypotheses can be met *)
Example C63_dense_ex : d_duplicate (N := QNum) true (mkDense 1 2 2 [1; 2]%Q) [7; 7]%Q = Ok (mkDense 1 2 2 [1; 2]%Q).
Proof. reflexivity. Qed.
Example C63_padding_ex : (1 <> 2)%Q. Proof. discriminate. Qed.
Example C63_sparse_ex : s_duplicate (N := QNum) (mkSparse 2 1 [1] [0; 1] (Some [0]) [5]%Q) [9; 9] [9] [9]%Q [9]
  = Ok (mkSparse 2 1 [1] [0; 1] (Some [0]) [5]%Q).
Proof. reflexivity. Qed.
Example C63_sprow_ex : r_duplicate (N := QNum) (mkSprow 2 2 [0; 1; 3] [0; 0; 1] None [1; 1; 1]%Q) [9; 9; 9] [9; 9; 9] [9; 9; 9]%Q []
  = Ok (mkSprow 2 2 [0; 1; 3] [0; 0; 1] None [1; 1; 1]%Q).
Proof. reflexivity. Qed.
Print Assumptions C63_dense.
Print Assumptions C63_padding_refuted.
Print Assumptions C63_sparse.
Print Assumptions C63_sprow.
Print Assumptions C63_sprow_short_refuted.
Print Assumptions C63_sprow_long_refuted.
